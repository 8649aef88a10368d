(** Samples: the default rescaling factor bounds the spectrum when the on-site
    energies are not negative. *)
From Verif Require Import Prelude Vec Cx M_hop M_pc M_inter M_index M_super M_bloch M_sample S_sample S_bloch L_base L_csr L_smat.
From Coq Require Import Reals Lra Psatz Permutation.

(** ** Absolute values *)
Definition Cmod (a : Cplx) : R := sqrt (fst a * fst a + snd a * snd a).
Definition Rleb (x y : R) : bool := if Rle_dec x y then true else false.
Lemma Rleb_spec x y : Rleb x y = true <-> (x <= y)%R.
Proof. unfold Rleb. destruct (Rle_dec x y); split; intros; auto; try discriminate; contradiction. Qed.
Lemma Cmod_pos a : (0 <= Cmod a)%R.
Proof. apply sqrt_pos. Qed.
Lemma Cmod_sq a : (Cmod a * Cmod a = fst a * fst a + snd a * snd a)%R.
Proof. unfold Cmod. apply sqrt_sqrt. nra. Qed.
Lemma Cmod_0 : Cmod (Cre 0) = 0%R.
Proof. unfold Cmod, Cre. cbn. replace (0 * 0 + 0 * 0)%R with 0%R by ring. apply sqrt_0. Qed.
Lemma Cmod_eq0 a : Cmod a = 0%R -> a = Cre 0.
Proof. intros H. pose proof (Cmod_sq a) as Hs. rewrite H in Hs. destruct a as [x y]. cbn in *. unfold Cre. f_equal; nra. Qed.
Lemma Cmod_conj a : Cmod (Cconj a) = Cmod a.
Proof. unfold Cmod, Cconj. cbn. f_equal. ring. Qed.
Lemma Cmod_re x : Cmod (Cre x) = Rabs x.
Proof. unfold Cmod, Cre. cbn. replace (x * x + 0 * 0)%R with (Rsqr x) by (unfold Rsqr; ring). apply sqrt_Rsqr_abs. Qed.
Lemma Cmod_mul a b : Cmod (Cmul a b) = (Cmod a * Cmod b)%R.
Proof. unfold Cmod, Cmul. cbn. rewrite <- sqrt_mult by nra. f_equal. ring. Qed.
Lemma Rle_sq x y : (0 <= y -> x * x <= y * y -> x <= y)%R.
Proof. intros Hy H. destruct (Rle_lt_dec x y); [assumption|]. exfalso. nra. Qed.
Lemma Cmod_add a b : (Cmod (Cadd a b) <= Cmod a + Cmod b)%R.
Proof.
  pose proof (Cmod_pos a) as Pa. pose proof (Cmod_pos b) as Pb. apply Rle_sq; [lra|].
  rewrite Cmod_sq. pose proof (Cmod_sq a) as Ha. pose proof (Cmod_sq b) as Hb. destruct a as [x y], b as [z w]. cbn in *.
  assert (H : (x * z + y * w <= Cmod (x, y) * Cmod (z, w))%R).
  { apply Rle_sq; [nra|]. pose proof (Rle_0_sqr (x * w - y * z)) as Hs. unfold Rsqr in Hs.
    replace (Cmod (x, y) * Cmod (z, w) * (Cmod (x, y) * Cmod (z, w)))%R with ((Cmod (x, y) * Cmod (x, y)) * (Cmod (z, w) * Cmod (z, w)))%R by ring.
    rewrite Ha, Hb. nra. }
  nra.
Qed.

Lemma Cmod_esum {A} (f : A -> Cplx) l : (Cmod (esum (map f l)) <= esum (map (fun x => Cmod (f x)) l))%R.
Proof.
  induction l as [|x l IH]; cbn [map]; rewrite ?esum_nil, ?esum_cons; [right; apply Cmod_0|].
  eapply Rle_trans; [apply Cmod_add|]. cbn [sadd RScalar]. lra.
Qed.
Lemma esum_le {A} (f g : A -> R) l : (forall x, In x l -> f x <= g x)%R -> (esum (map f l) <= esum (map g l))%R.
Proof.
  induction l as [|x l IH]; intros H; cbn [map]; rewrite ?esum_nil, ?esum_cons; [right; reflexivity|]. cbn [sadd RScalar].
  apply Rplus_le_compat; [apply H; left; reflexivity|]. apply IH. intros y Hy. apply H. right. exact Hy.
Qed.

(** ** Sums of the absolute values of each row *)
Section Sums.
  Notation row := (M_super.row Cplx R).
  Definition touches (i : Z) (r : row) : R := ((if r_i r =? i then Cmod (r_v r) else 0) + (if r_j r =? i then Cmod (r_v r) else 0))%R.
  Lemma row_sums_tab n rows : inside r_i r_j (Z.of_nat n) rows -> forall f,
    row_sums Cmod (tab n f) rows = Ok (tab n (fun k => (f k + esum (map (touches (Z.of_nat k)) rows))%R)).
  Proof.
    intros Hin. unfold row_sums. induction rows as [|r rows IH]; intros f.
    - rewrite loop_nil. f_equal. apply tab_ext. intros k _. cbn [map]. rewrite esum_nil. cbn. ring.
    - unfold inside in Hin. inversion Hin as [|? ? [H1 H2] Hin']; subst. specialize (IH Hin'). rewrite loop_cons.
      replace (r_i r) with (Z.of_nat (Z.to_nat (r_i r))) by lia. rewrite upd_tab by lia. cbn [bind].
      replace (r_j r) with (Z.of_nat (Z.to_nat (r_j r))) by lia. rewrite upd_tab by lia. cbn [bind]. rewrite IH. f_equal. apply tab_ext.
      intros k _. cbn [map]. rewrite esum_cons. unfold touches at 2. cbn [sadd RScalar].
      destruct (Nat.eqb_spec k (Z.to_nat (r_i r))) as [H3|H3], (Nat.eqb_spec k (Z.to_nat (r_j r))) as [H4|H4];
        destruct (Z.eqb_spec (r_i r) (Z.of_nat k)), (Z.eqb_spec (r_j r) (Z.of_nat k)); try lia; ring.
  Qed.
  Lemma fold_max l : forall x, (x <= fold_left (smax Rleb) l x)%R /\ Forall (fun y => y <= fold_left (smax Rleb) l x)%R l.
  Proof.
    induction l as [|y l IH]; intros x; cbn [fold_left]; [split; [lra|constructor]|].
    destruct (IH (smax Rleb x y)) as [H1 H2].
    assert (H : (x <= smax Rleb x y /\ y <= smax Rleb x y)%R).
    { unfold smax. destruct (Rleb x y) eqn:Hr; [apply Rleb_spec in Hr; lra|]. unfold Rleb in Hr. destruct (Rle_dec x y); [discriminate|lra]. }
    split; [lra|]. constructor; [lra|exact H2].
  Qed.
  Lemma rescale_bound eng rows m i w : inside r_i r_j (Z.of_nat (length eng)) rows -> get_rescale Cmod Rleb eng rows = Ok m ->
    nth_error eng (Z.to_nat i) = Some w -> 0 <= i -> (w + esum (map (touches i) rows) <= m)%R.
  Proof.
    intros Hin Hm Hw Hi. unfold get_rescale in Hm. rewrite <- (tab_list eng 0%R) in Hm.
    rewrite (row_sums_tab (length eng) rows Hin) in Hm. cbn [bind] in Hm.
    assert (Hlt : (Z.to_nat i < length eng)%nat) by (apply nth_error_Some; congruence).
    pose proof (tab_nth (length eng) (fun k => (nth k eng 0 + esum (map (touches (Z.of_nat k)) rows))%R) _ Hlt) as Ht. cbv beta in Ht.
    rewrite (nth_error_nth _ _ 0%R Hw), Z2Nat.id in Ht by exact Hi.
    destruct (tab _ _) as [|x l]; [discriminate|]. injection Hm as <-. destruct (fold_max l x) as [H1 H2].
    apply nth_error_In in Ht. destruct Ht as [<-|Ht]; [exact H1|]. rewrite Forall_forall in H2. exact (H2 _ Ht).
  Qed.

  (** Row i of the Hamiltonian. *)
  Lemma ham_row n eng rows i : (0 <= i < Z.of_nat n) -> inside r_i r_j (Z.of_nat n) rows -> length eng = n ->
    (forall w, In w eng -> 0 <= w)%R -> forall w, nth_error eng (Z.to_nat i) = Some w ->
    (esum (map (fun j => Cmod (ham Cconj Cre r_i r_j r_v eng rows i j)) (zrange n)) <= w + esum (map (touches i) rows))%R.
  Proof.
    intros Hi Hin Hl Hpos w Hw.
    assert (Hnd : NoDup (zrange n)) by apply NoDup_zrange.
    assert (Hmem : forall j, 0 <= j < Z.of_nat n -> In j (zrange n)) by (intros j Hj; apply In_zrange; lia).
    set (one := fun (r : row) (j : Z) => ((if ((r_i r =? i) && (r_j r =? j)) then Cmod (r_v r) else 0) + (if ((r_j r =? i) && (r_i r =? j)) then Cmod (r_v r) else 0))%R).
    apply Rle_trans with (esum (map (fun j => ((if j =? i then w else 0) + esum (map (fun r => one r j) rows))%R) (zrange n))).
    - apply esum_le. intros j Hj. unfold ham. eapply Rle_trans; [apply Cmod_add|]. apply Rplus_le_compat.
      + unfold site. rewrite (Z.eqb_sym i j). destruct (j =? i) eqn:Hji; [|right; apply Cmod_0]. replace (0 <=? i) with true by lia. cbn [andb].
        rewrite Hw, Cmod_re, Rabs_right; [right; reflexivity|]. apply Rle_ge, Hpos. exact (nth_error_In _ _ Hw).
      + unfold hop_part. eapply Rle_trans; [apply Cmod_esum|]. apply esum_le. intros r Hr. eapply Rle_trans; [apply Cmod_add|]. unfold one.
        apply Rplus_le_compat; (destruct (_ && _); [|right; apply Cmod_0]); right; [reflexivity|apply Cmod_conj].
    - right. rewrite (esum_add RLaws). cbn [sadd RScalar]. f_equal.
      + apply (esum_single RLaws Z.eqb Z.eqb_eq (fun _ => w)); [exact Hnd|apply Hmem; exact Hi].
      + rewrite (esum_swap RLaws). f_equal. apply map_ext_in. intros r Hr. unfold inside in Hin. rewrite Forall_forall in Hin. destruct (Hin r Hr) as [H1 H2].
        unfold one, touches. rewrite (esum_add RLaws). cbn [sadd RScalar].
        assert (Hs : forall (b : bool) c, 0 <= c < Z.of_nat n -> esum (map (fun j => if b && (c =? j) then Cmod (r_v r) else 0%R) (zrange n)) = (if b then Cmod (r_v r) else 0)%R).
        { intros b c Hc. destruct b; cbn [andb].
          - etransitivity; [|exact (esum_single RLaws Z.eqb Z.eqb_eq (fun _ => Cmod (r_v r)) (zrange n) c Hnd (Hmem c Hc))]. f_equal. apply map_ext. intros j. rewrite Z.eqb_sym. reflexivity.
          - apply (esum_zero RLaws). intros x Hx. apply in_map_iff in Hx. destruct Hx as (? & <- & _). reflexivity. }
        f_equal; apply Hs; assumption.
  Qed.

  Lemma max_at (f : Z -> R) n : (0 < n)%nat -> exists i, 0 <= i < Z.of_nat n /\ forall j, 0 <= j < Z.of_nat n -> (f j <= f i)%R.
  Proof.
    induction n as [|n IH]; intros H; [lia|]. destruct n as [|n].
    - exists 0. split; [lia|]. intros j Hj. replace j with 0 by lia. lra.
    - destruct IH as (i & Hi & Hm); [lia|]. destruct (Rle_lt_dec (f (Z.of_nat (S n))) (f i)) as [Hf|Hf].
      + exists i. split; [lia|]. intros j Hj. destruct (Z.eq_dec j (Z.of_nat (S n))) as [->|Hne]; [exact Hf|]. apply Hm. lia.
      + exists (Z.of_nat (S n)). split; [lia|]. intros j Hj. destruct (Z.eq_dec j (Z.of_nat (S n))) as [->|Hne]; [lra|].
        apply Rle_trans with (f i); [apply Hm; lia|lra].
  Qed.

  Theorem spectrum_bound eng rows m v lam : inside r_i r_j (Z.of_nat (length eng)) rows ->
    (forall w, In w eng -> 0 <= w)%R -> get_rescale Cmod Rleb eng rows = Ok m ->
    eigen (length eng) (ham Cconj Cre r_i r_j r_v eng rows) v lam ->
    (exists i, 0 <= i < Z.of_nat (length eng) /\ v i <> Cre 0) -> (Cmod lam <= m)%R.
  Proof.
    intros Hin Hpos Hm He (i0 & Hi0 & Hne). destruct (max_at (fun i => Cmod (v i)) (length eng)) as (i & Hi & Hmax); [lia|].
    assert (Hv : (0 < Cmod (v i))%R).
    { destruct (Cmod_pos (v i)) as [H|H]; [exact H|]. exfalso. apply Hne, Cmod_eq0. pose proof (Hmax i0 Hi0) as Hx. cbv beta in Hx. pose proof (Cmod_pos (v i0)). lra. }
    destruct (nth_error eng (Z.to_nat i)) as [w|] eqn:Hw; [|apply nth_error_None in Hw; lia].
    specialize (He i Hi). apply (f_equal Cmod) in He. change (smul lam (v i)) with (Cmul lam (v i)) in He. rewrite Cmod_mul in He.
    pose proof (ham_row (length eng) eng rows i Hi Hin eq_refl Hpos w Hw) as Hrow.
    pose proof (rescale_bound eng rows m i w Hin Hm Hw (proj1 Hi)) as Hb.
    assert (H : (Cmod lam * Cmod (v i) <= esum (map (fun j => Cmod (ham Cconj Cre r_i r_j r_v eng rows i j)) (zrange (length eng))) * Cmod (v i))%R).
    { rewrite <- He. eapply Rle_trans; [apply Cmod_esum|].
      change (esum (map (fun j => Cmod (ham Cconj Cre r_i r_j r_v eng rows i j)) (zrange (length eng))) * Cmod (v i))%R with
             (smul (esum (map (fun j => Cmod (ham Cconj Cre r_i r_j r_v eng rows i j)) (zrange (length eng)))) (Cmod (v i))).
      rewrite <- (esum_mul_r RLaws). apply esum_le. intros j Hj. change (smul (ham Cconj Cre r_i r_j r_v eng rows i j) (v j)) with (Cmul (ham Cconj Cre r_i r_j r_v eng rows i j) (v j)).
      rewrite Cmod_mul. cbn [smul RScalar]. apply Rmult_le_compat_l; [apply Cmod_pos|]. apply Hmax. apply In_zrange in Hj. lia. }
    nra.
  Qed.
End Sums.
