(** C93: random initial states. *)
From Coq Require Import Reals Lra MSetPositive.
From Verif Require Import Prelude Vec Cx M_random S_random.
Local Open Scope Z_scope.

(** ** 32-bit integers *)
Lemma int32_cong x : exists q, int32 x = x + q * 2 ^ 32.
Proof. unfold int32. exists (- ((x + 2 ^ 31) / 2 ^ 32)). pose proof (Z.div_mod (x + 2 ^ 31) (2 ^ 32) ltac:(lia)). lia. Qed.
Lemma int32_eq x y q : x = y + q * 2 ^ 32 -> int32 x = int32 y.
Proof. intros ->. unfold int32. replace (y + q * 2 ^ 32 + 2 ^ 31) with (y + 2 ^ 31 + q * 2 ^ 32) by lia. rewrite Z.mod_add by lia. reflexivity. Qed.
Lemma int32_mul x y : int32 (int32 x * y) = int32 (x * y).
Proof. destruct (int32_cong x) as (q & ->). apply (int32_eq _ _ (q * y)). lia. Qed.
Lemma int32_small x : - 2 ^ 31 <= x < 2 ^ 31 -> int32 x = x.
Proof. intros H. unfold int32. rewrite Z.mod_small by lia. lia. Qed.
Lemma init_seed_mul n x y : init_seed n (int32 (int32 x * y)) = map (fun i => int32 (Z.of_nat i * x * y * 74231) mod 104717) (seq 1 n).
Proof.
  unfold init_seed. apply map_ext. intros i. f_equal. rewrite int32_mul. destruct (int32_cong (int32 x * y)) as (q & ->). destruct (int32_cong x) as (p & ->).
  apply (int32_eq _ _ (Z.of_nat i * (p * y + q) * 74231)). lia.
Qed.

(** ** The state *)
(** the seed array of a state *)
Definition seeds (n_seed : nat) (iseed : Z) : list Z := init_seed n_seed (int32 (int32 iseed * 49741)).
Fixpoint sumR (f : nat -> R) (l : list nat) : R := match l with [] => 0%R | i :: r => (f i + sumR f r)%R end.
Lemma fold_raw draw sd l : forall wf a,
  fold_left (fun a i => let '(wf, s) := a in let '(z, w) := raw draw sd i in (wf ++ [w], (s + z)%R)) l (wf, a)
  = (wf ++ map (fun i => snd (raw draw sd i)) l, (a + sumR (fun i => fst (raw draw sd i)) l)%R).
Proof.
  induction l as [|i l IH]; intros wf a; cbn [fold_left map sumR]; [rewrite app_nil_r, Rplus_0_r; reflexivity|].
  destruct (raw draw sd i) as [z w] eqn:E. rewrite IH. rewrite <- app_assoc. cbn [app fst snd]. f_equal. ring.
Qed.
Lemma sumR_nonneg f l : (forall i, In i l -> 0 <= f i)%R -> (0 <= sumR f l)%R.
Proof. induction l as [|i l IH]; intros H; cbn [sumR]; [lra|]. pose proof (H i (or_introl eq_refl)). specialize (IH (fun j Hj => H j (or_intror Hj))). lra. Qed.
Lemma sumR_pos f l i : (forall i, In i l -> 0 <= f i)%R -> In i l -> (0 < f i)%R -> (0 < sumR f l)%R.
Proof.
  induction l as [|j l IH]; intros H Hi Hp; [contradiction|]. cbn [sumR]. pose proof (sumR_nonneg f l (fun j Hj => H j (or_intror Hj))). pose proof (H j (or_introl eq_refl)).
  destruct Hi as [->|Hi]; [lra|]. specialize (IH (fun j Hj => H j (or_intror Hj)) Hi Hp). lra.
Qed.
Lemma raw_exponential draw sd i : (0 <= draw sd (2 * i)%nat < 1)%R -> exponential (fst (raw draw sd i)) (draw sd (2 * i)%nat).
Proof.
  intros H. unfold exponential, raw. cbn [fst]. set (f := draw sd (2 * i)%nat) in *. split.
  - destruct (Req_dec f 0) as [->|E]; [rewrite Rminus_0_r, ln_1; lra|]. pose proof (ln_increasing (1 - f) 1 ltac:(lra) ltac:(lra)) as Hl. rewrite ln_1 in Hl. lra.
  - replace (- (-1 * ln (1 - f)))%R with (ln (1 - f)) by ring. rewrite exp_ln by lra. ring.
Qed.
Lemma weight_cis c r g : (0 <= r)%R -> weight (Cmul (Cre c) (Cmul (Cre (sqrt r)) (Ccis g))) = (c * c * r)%R.
Proof.
  intros Hr. unfold weight, Cmul, Cre, Ccis. cbn [fst snd]. pose proof (sqrt_sqrt r Hr) as Hs. pose proof (sin2_cos2 g) as Hg. unfold Rsqr in Hg. set (q := sqrt r) in *.
  replace ((c * (q * cos g - 0 * sin g) - 0 * (q * sin g + 0 * cos g)) ^ 2 + (c * (q * sin g + 0 * cos g) + 0 * (q * cos g - 0 * sin g)) ^ 2)%R with (c * c * (q * q) * (sin g * sin g + cos g * cos g))%R by ring.
  rewrite Hg, Hs. ring.
Qed.

(** Every state is normalised, with weights drawn from the exponential
    distribution and uniform phases, from numbers that belong to the seed. *)
Theorem C93_state : forall n_seed draw n iseed, (forall sd k, 0 <= draw sd k < 1)%R ->
  (exists i, (i < n)%nat /\ draw (seeds n_seed iseed) (2 * i)%nat <> 0%R) ->
  exists wf x N, random_state n_seed draw n iseed = Some wf /\ length wf = n /\ total_weight wf = 1%R /\ (0 < N)%R
    /\ forall i, (i < n)%nat -> exponential (x i) (draw (seeds n_seed iseed) (2 * i)%nat)
         /\ nth_error wf i = Some (Cmul (Cre (sqrt (x i / N))) (Ccis (2 * PI * draw (seeds n_seed iseed) (2 * i + 1)%nat))).
Proof.
  intros n_seed draw n iseed Hd (i0 & Hi0 & Hn0). set (sd := seeds n_seed iseed) in *. set (x := fun i => fst (raw draw sd i)). set (N := sumR x (seq 0 n)).
  assert (Hx : forall i, exponential (x i) (draw sd (2 * i)%nat)) by (intros i; apply raw_exponential; apply Hd).
  assert (HN : (0 < N)%R).
  { apply (sumR_pos x (seq 0 n) i0); [intros i _; exact (proj1 (Hx i))|apply in_seq; lia|]. destruct (Hx i0) as [H0 Hf]. destruct (Rle_lt_or_eq_dec 0 (x i0) H0) as [H|H]; [exact H|exfalso]. apply Hn0. rewrite Hf, <- H, Ropp_0, exp_0. ring. }
  exists (map (fun w => Cmul (Cre (/ sqrt N)) w) (map (fun i => snd (raw draw sd i)) (seq 0 n))), x, N.
  split; [|split; [|split; [|split; [exact HN|]]]].
  - unfold random_state. fold (seeds n_seed iseed). fold sd. rewrite fold_raw. cbn [fst snd app]. rewrite Rplus_0_l. fold x. fold N. destruct (Req_EM_T N 0); [lra|reflexivity].
  - rewrite !map_length, seq_length. reflexivity.
  - rewrite map_map. assert (G : forall l, total_weight (map (fun i => Cmul (Cre (/ sqrt N)) (snd (raw draw sd i))) l) = (/ N * sumR x l)%R).
    { induction l as [|i l IH]; cbn [map total_weight sumR]; [ring|]. rewrite IH. unfold raw at 1. cbn [snd].
      rewrite weight_cis by exact (proj1 (Hx i)). rewrite <- Rinv_mult, sqrt_sqrt by lra. change (-1 * ln (1 - draw sd (2 * i)%nat))%R with (x i). ring. }
    rewrite G. fold N. apply Rinv_l. lra.
  - intros i Hi. split; [apply Hx|]. rewrite map_map, nth_error_map, (nth_error_nth' _ O) by (rewrite seq_length; exact Hi). rewrite seq_nth by exact Hi. cbn [option_map Nat.add]. unfold raw. cbn [snd]. f_equal.
    change (-1 * ln (1 - draw sd (2 * i)%nat))%R with (x i). rewrite sqrt_div_alt by exact HN. ceq; unfold Rdiv; ring.
Qed.
Print Assumptions C93_state.
(** If all numbers that give the weights are zero the state is not a number. *)
Theorem C93_nan : forall n_seed draw n iseed, (forall i, (i < n)%nat -> draw (seeds n_seed iseed) (2 * i)%nat = 0%R) -> random_state n_seed draw n iseed = None.
Proof.
  intros n_seed draw n iseed H. unfold random_state. fold (seeds n_seed iseed). rewrite fold_raw. cbn [fst snd]. rewrite Rplus_0_l.
  assert (E : sumR (fun i => fst (raw draw (seeds n_seed iseed) i)) (seq 0 n) = 0%R).
  { assert (G : forall l, (forall i, In i l -> (i < n)%nat) -> sumR (fun i => fst (raw draw (seeds n_seed iseed) i)) l = 0%R).
    { induction l as [|i l IH]; intros Hl; cbn [sumR]; [reflexivity|]. rewrite IH by (intros j Hj; apply Hl; right; exact Hj). unfold raw. cbn [fst]. rewrite H by (apply Hl; left; reflexivity). rewrite Rminus_0_r, ln_1. ring. }
    apply G. intros i Hi. apply in_seq in Hi. lia. }
  rewrite E. destruct (Req_EM_T 0 0); [reflexivity|congruence].
Qed.
Print Assumptions C93_nan.

(** ** Seeds *)
Lemma state_seeds n_seed draw n a b : seeds n_seed a = seeds n_seed b -> random_state n_seed draw n a = random_state n_seed draw n b.
Proof. intros H. unfold random_state. fold (seeds n_seed a). fold (seeds n_seed b). rewrite H. reflexivity. Qed.
(** The state is a function of the seed modulo 2^32. *)
Theorem C93_reproducible : forall n_seed draw n a b, (a - b) mod 2 ^ 32 = 0 -> random_state n_seed draw n a = random_state n_seed draw n b.
Proof.
  intros n_seed draw n a b H. apply state_seeds. unfold seeds. rewrite !init_seed_mul. apply map_ext. intros i. f_equal.
  apply Z.mod_divide in H; [|lia]. destruct H as (q & H). apply (int32_eq _ _ (Z.of_nat i * q * 49741 * 74231)). replace a with (b + q * 2 ^ 32) by lia. lia.
Qed.
Print Assumptions C93_reproducible.
(** With the default seed the first ten thousand samples have different seed
    arrays, whatever their length, if it is at least two. *)
Fixpoint fresh (l : list positive) (s : PositiveSet.t) : bool :=
  match l with [] => true | p :: r => negb (PositiveSet.mem p s) && fresh r (PositiveSet.add p s) end.
Lemma fresh_ok l : forall s, fresh l s = true -> NoDup l /\ forall p, In p l -> ~ PositiveSet.In p s.
Proof.
  induction l as [|p l IH]; intros s H; [split; [constructor|intros p []]|]. cbn [fresh] in H. apply andb_prop in H as [H1 H2]. apply IH in H2 as [H2 H3]. apply negb_true_iff in H1. split.
  - constructor; [|exact H2]. intros Hp. apply (H3 p Hp). apply PositiveSet.add_spec. left. reflexivity.
  - intros q [<-|Hq] Hs; [apply PositiveSet.mem_spec in Hs; congruence|]. apply (H3 q Hq). apply PositiveSet.add_spec. right. exact Hs.
Qed.
Definition code (k : Z) : positive :=
  Z.to_pos (int32 (1337 * k * 49741 * 74231) mod 104717 * 104717 + int32 (2 * (1337 * k) * 49741 * 74231) mod 104717 + 1).
Lemma NoDup_map_inj {A B} (f : A -> B) l a b : NoDup (map f l) -> In a l -> In b l -> f a = f b -> a = b.
Proof.
  induction l as [|x l IH]; intros H Ha Hb E; [contradiction|]. cbn [map] in H. inversion H as [|? ? H1 H2]; subst.
  destruct Ha as [->|Ha], Hb as [->|Hb]; [reflexivity| | |exact (IH H2 Ha Hb E)]; exfalso; apply H1; [rewrite E|rewrite <- E]; apply in_map; assumption.
Qed.
Theorem C93_default : forall n_seed j k, (2 <= n_seed)%nat -> 1 <= j <= 10000 -> 1 <= k <= 10000 -> j <> k -> seeds n_seed (1337 * j) <> seeds n_seed (1337 * k).
Proof.
  intros n_seed j k Hn Hj Hk Hne E. apply Hne.
  assert (F : fresh (map (fun i => code (Z.of_nat i)) (seq 1 (Z.to_nat 10000))) PositiveSet.empty = true) by (vm_compute; reflexivity).
  apply fresh_ok in F as [F _]. unfold seeds in E. rewrite !init_seed_mul in E. destruct n_seed as [|[|n_seed]]; [lia|lia|]. cbn [seq map] in E. injection E as E1 E2 _.
  assert (Q : Z.to_nat j = Z.to_nat k); [|lia].
  apply (NoDup_map_inj _ _ _ _ F); [apply in_seq; lia|apply in_seq; lia|]. unfold code. rewrite !Z2Nat.id by lia. 
  assert (E1' : int32 (1337 * j * 49741 * 74231) mod 104717 = int32 (1337 * k * 49741 * 74231) mod 104717).
  { replace (1337 * j * 49741 * 74231) with (Z.of_nat 1 * (1337 * j) * 49741 * 74231) by lia. replace (1337 * k * 49741 * 74231) with (Z.of_nat 1 * (1337 * k) * 49741 * 74231) by lia. exact E1. }
  assert (E2' : int32 (2 * (1337 * j) * 49741 * 74231) mod 104717 = int32 (2 * (1337 * k) * 49741 * 74231) mod 104717) by exact E2.
  rewrite E1', E2'. reflexivity.
Qed.
Print Assumptions C93_default.
(** Whether samples differ is up to the seed.  Samples j and k of a calculation
    get the seeds iseed * j and iseed * k: if 2^32 divides iseed * (j - k) they
    start from the same state. *)
Theorem C93_period_refuted : forall n_seed draw n iseed j k, iseed * (j - k) mod 2 ^ 32 = 0 -> random_state n_seed draw n (iseed * j) = random_state n_seed draw n (iseed * k).
Proof. intros n_seed draw n iseed j k H. apply C93_reproducible. rewrite <- Z.mul_sub_distr_l. exact H. Qed.
Print Assumptions C93_period_refuted.
(** That happens for odd seeds, too: 1441268729 gives every sample up to 500 an
    array of zeros. *)
Theorem C93_odd_refuted : forall n_seed draw n j k, (n_seed <= 33)%nat -> 1 <= j <= 500 -> 1 <= k <= 500 ->
  seeds n_seed (1441268729 * j) = repeat 0 n_seed /\ random_state n_seed draw n (1441268729 * j) = random_state n_seed draw n (1441268729 * k).
Proof.
  intros n_seed draw n j k Hn. 
  assert (G : forall j, 1 <= j <= 500 -> seeds n_seed (1441268729 * j) = repeat 0 n_seed).
  { clear j k. intros j Hj. unfold seeds. rewrite init_seed_mul.
    assert (H : forall m a, (a + m <= S n_seed)%nat -> map (fun i => int32 (Z.of_nat i * (1441268729 * j) * 49741 * 74231) mod 104717) (seq a m) = repeat 0 m); [|apply H; lia].
    induction m as [|m IH]; intros a Ha; [reflexivity|]. cbn [seq map repeat]. rewrite IH by lia. f_equal.
    rewrite (int32_eq _ (Z.of_nat a * j * -104717) (Z.of_nat a * j * ((1441268729 * 49741 * 74231 + 104717) / 2 ^ 32))).
    2:{ change ((1441268729 * 49741 * 74231 + 104717) / 2 ^ 32) with 1239038856. lia. }
    rewrite int32_small by nia. apply Z.mod_divide; [lia|]. exists (- (Z.of_nat a * j)). lia. }
  intros Hj Hk. split; [apply G; exact Hj|]. apply state_seeds. rewrite (G j Hj), (G k Hk). reflexivity.
Qed.
Print Assumptions C93_odd_refuted.
(** Two samples of an innocent seed. *)
Theorem C93_chance_refuted : forall draw n, random_state 4 draw n (12345 * 41) = random_state 4 draw n (12345 * 8163).
Proof. intros draw n. apply state_seeds. vm_compute. reflexivity. Qed.
Print Assumptions C93_chance_refuted.

(** ** Examples *)
(** One orbital: the state is a phase. *)
Example one_orbital : random_state 8 (fun _ k => if Nat.even k then 1 / 2 else 1 / 4)%R 1 1337 = Some [(0, 1)%R].
Proof.
  destruct (C93_state 8 (fun _ k => if Nat.even k then 1 / 2 else 1 / 4)%R 1 1337) as (wf & x & N & H & Hl & Ht & HN & Hw).
  - intros sd k. destruct (Nat.even k); lra.
  - exists O. split; [lia|]. cbn. lra.
  - rewrite H. f_equal. destruct wf as [|w [|]]; try discriminate. destruct (Hw O ltac:(lia)) as (_ & E). cbn in E. injection E as E. rewrite E.
    replace (2 * PI * (1 / 4))%R with (PI / 2)%R by field. unfold Ccis. rewrite cos_PI2, sin_PI2.
    assert (W : total_weight [w] = (sqrt (x O / N) * sqrt (x O / N))%R).
    { rewrite E. replace (2 * PI * (1 / 4))%R with (PI / 2)%R by field. unfold Ccis. rewrite cos_PI2, sin_PI2. unfold total_weight, weight, Cmul, Cre. cbn [fst snd]. ring. }
    rewrite Ht in W. assert (Q : sqrt (x O / N) = 1%R) by (pose proof (sqrt_pos (x O / N)); nra). rewrite Q. f_equal. ceq; ring.
Qed.
Example seeds_default : seeds 8 1337 = [16798; 34055; 50853; 68110; 84908; 101706; 14246; 31044].
Proof. vm_compute. reflexivity. Qed.
Example wraps : int32 (2 ^ 31) = - 2 ^ 31 /\ int32 (2 ^ 32 + 5) = 5 /\ int32 (-1) = -1. Proof. vm_compute. repeat split. Qed.
