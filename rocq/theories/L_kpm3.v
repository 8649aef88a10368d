(** Coefficients of the Fermi operator. *)
From Coq Require Import Reals Lra.
From Verif Require Import Prelude Vec Cx M_super M_sample M_fft M_ana S_prop S_fft S_ana L_base L_super L_csr L_prop L_prop2 L_gersh L_fft L_dft L_tbpm3 L_kpm L_kpm2 P_fft.
Local Open Scope R_scope.

Lemma jack_damping n k : jack n k = damping n k.
Proof. unfold jack, damping. destruct (Nat.eqb k 0); [reflexivity|]. unfold Rdiv. ring. Qed.
Lemma jackson_tab n : (1 <= n)%nat -> jackson_kernel (Z.of_nat n) = Ok (tab n (jack n)).
Proof.
  intros Hn. unfold jackson_kernel. destruct (Z.leb_spec (Z.of_nat n) 0); [lia|]. rewrite Nat2Z.id. f_equal. change (zrange n) with (tab n Z.of_nat). rewrite map_tab. apply tab_ext. intros k Hk. unfold jack.
  destruct (Nat.eqb_spec k 0) as [->|Hk0]; [reflexivity|]. destruct (Z.eqb_spec (Z.of_nat k) 0); [lia|]. rewrite !INR_IZR_INZ, Nat2Z.inj_sub by lia. reflexivity.
Qed.
Lemma fcoef_grid n g k : (1 <= n)%nat -> fcoef n (fun j => g (cos (2 * PI / INR (2 * n) * INR j))) k = grid_coef n g k.
Proof.
  intros Hn. assert (HN : INR (2 * n) <> 0) by (apply not_0_INR; lia). unfold fcoef, grid_coef. rewrite jack_damping. cbv zeta. unfold Rdiv at 1. rewrite Rmult_assoc, (Rmult_comm _ (/ INR n)), <- Rmult_assoc. f_equal.
  change (rsum (2 * n) (fun j => g (cos (2 * PI / INR (2 * n) * INR j)) * cos (INR k * (2 * PI / INR (2 * n) * INR j))) =
          rsum (2 * n) (fun j => g (cos (2 * PI * INR j / INR (2 * n))) * cos (INR k * (2 * PI * INR j / INR (2 * n))))).
  apply sum_ext. intros j _. replace (2 * PI / INR (2 * n) * INR j) with (2 * PI * INR j / INR (2 * n)) by (field; exact HN). reflexivity.
Qed.

Lemma small_iff eps x : small eps x = true <-> Rabs x < eps.
Proof. unfold small. destruct (Rlt_dec (Rabs x) eps); split; intros; (assumption || reflexivity || discriminate || contradiction). Qed.
Lemma cut_ok eps c mem todo : (length c < length mem)%nat -> (forall i, (i < length c)%nat -> nth_error mem i = nth_error c i) ->
  forall i, (i + todo = length c)%nat -> (forall j, (j < i)%nat -> ~ pair_below eps c j) -> exists k, cut eps mem i todo = Ok k /\ cut_at eps c k.
Proof.
  intros Hm He. induction todo as [|t IH]; intros i Hi Hno.
  - cbn [cut]. exists i. split; [reflexivity|]. left. split; [lia|]. intros j Hp. apply (Hno j); [destruct Hp; lia|exact Hp].
  - cbn [cut].
    assert (Ra : rd mem (Z.of_nat i) = Ok (nth i c 0)).
    { unfold rd. destruct (Z.ltb_spec (Z.of_nat i) 0); [lia|]. rewrite Nat2Z.id, He by lia. rewrite (nth_error_nth' c 0) by lia. reflexivity. }
    rewrite Ra. cbn [bind].
    destruct (nth_error mem (S i)) as [b|] eqn:Eb; [|apply nth_error_None in Eb; lia].
    assert (Rb : rd mem (Z.of_nat i + 1) = Ok b).
    { unfold rd. destruct (Z.ltb_spec (Z.of_nat i + 1) 0); [lia|]. replace (Z.to_nat (Z.of_nat i + 1)) with (S i) by lia. rewrite Eb. reflexivity. }
    rewrite Rb. cbn [bind].
    destruct (small eps (nth i c 0)) eqn:Sa; cbn [andb]; [destruct (small eps b) eqn:Sb|].
    + exists (S i). split; [reflexivity|]. destruct (Nat.eq_dec (S i) (length c)) as [El|Nl].
      * left. split; [exact El|]. intros j Hp. apply (Hno j); [destruct Hp; lia|exact Hp].
      * right. exists i. split; [reflexivity|]. split; [|exact Hno]. split; [lia|]. split; [apply small_iff, Sa|]. rewrite He in Eb by lia. rewrite (nth_error_nth c (S i) 0 Eb). apply small_iff, Sb.
    + apply IH; [lia|]. intros j Hj Hp. destruct (Nat.eq_dec j i) as [->|Hji]; [|apply (Hno j); [lia|exact Hp]].
      destruct Hp as (Hl & _ & H2). rewrite He in Eb by lia. rewrite (nth_error_nth c (S i) 0 Eb) in H2. apply small_iff in H2. congruence.
    + apply IH; [lia|]. intros j Hj Hp. destruct (Nat.eq_dec j i) as [->|Hji]; [|apply (Hno j); [lia|exact Hp]].
      destruct Hp as (_ & H1 & _). apply small_iff in H1. congruence.
Qed.

Definition occ (om : bool) (beta mu e : R) : R := if om then 1 - fermi beta mu e else fermi beta mu e.
Lemma fermi_coef_ok junk p beta mu om eps :
  let n := (2 ^ p)%nat in let c := tab n (grid_coef n (occ om beta mu)) in
  exists k, fermi_cheb_coef junk (Z.of_nat (2 * n)) beta mu om eps = Ok (firstn k c) /\ cut_at eps c k.
Proof.
  intros n c. pose proof (pow2_pos p) as Hp. fold n in Hp. unfold fermi_cheb_coef. rewrite Nat2Z.id.
  set (x := fun j => Cre (occ om beta mu (cos (2 * PI / INR (2 * n) * INR j)))).
  assert (Hf : map (fun i => let energy := cos (IZR i * (2 * PI / IZR (Z.of_nat (2 * n)))) in
                 Cre (if om then (1 - Fermi_dist beta mu energy)%R else Fermi_dist beta mu energy)) (zrange (2 * n)) = tab (2 ^ S p) x).
  { change (zrange (2 * n)) with (tab (2 * n) Z.of_nat). rewrite map_tab. apply tab_ext. intros j _. unfold x, occ. cbv zeta. rewrite !fermi_dist_eq, <- !INR_IZR_INZ, (Rmult_comm (INR j)). destruct om; reflexivity. }
  cbv zeta. cbv zeta in Hf. rewrite Hf. destruct (C54_fft (S p) (-1) x (tab (2 ^ S p) x) (or_intror eq_refl) (holds_tab _ _)) as (r & Hr & Hh).
  change (fft1d cexp (-1) (tab (2 ^ S p) x)) with (fft1d expi (-1) (tab (2 ^ S p) x)). rewrite Hr. cbn [bind]. apply holds_eq in Hh. subst r.
  replace (Z.of_nat (2 * n) / 2)%Z with (Z.of_nat n) by (rewrite Nat2Z.inj_mul; change (Z.of_nat 2) with 2%Z; rewrite Z.mul_comm, Z.div_mul by lia; reflexivity).
  rewrite jackson_tab by lia. cbn [bind]. rewrite Nat2Z.id. change (zrange n) with (tab n Z.of_nat).
  rewrite (mapM_tab _ n Z.of_nat (grid_coef n (occ om beta mu))).
  2: { intros k Hk. rewrite rd_tab by exact Hk. cbn [bind]. rewrite rd_tab by (change (2 ^ S p)%nat with (2 * n)%nat; lia). cbn [bind]. f_equal.
       rewrite <- fcoef_grid by lia. unfold fcoef. rewrite <- INR_IZR_INZ. f_equal. f_equal. change (2 ^ S p)%nat with (2 * n)%nat. unfold dft. rewrite csum_parts. cbn [fst]. apply sum_ext. intros j _.
       unfold x, Cre, Ccis, Cmul. cbn [fst snd]. rewrite Rmult_0_l, Rminus_0_r. f_equal. replace (INR k * (2 * PI / INR (2 * n) * INR j)) with (- (IZR (-1) * (2 * PI * INR j * INR k / INR (2 * n)))).
       - rewrite cos_neg. reflexivity.
       - unfold Rdiv. ring. }
  cbn [bind]. fold c. assert (Lc : length c = n) by apply tab_length.
  destruct (cut_ok eps c (c ++ map junk (seq (length c) (2 * n - length c))) n) with (i := 0%nat) as (k & Hk & Hc).
  - rewrite app_length, map_length, seq_length. lia.
  - intros i Hi. apply nth_error_app1. exact Hi.
  - lia.
  - intros j Hj. lia.
  - exists k. rewrite Hk. cbn [bind]. split; [reflexivity|exact Hc].
Qed.
