(** Energy grid and broadening of the density of states (C89). *)
From Coq Require Import Reals Lra.
From Verif Require Import Prelude Vec Cx M_super M_par M_broad S_par S_broad L_base L_super L_mat L_par L_par2 L_gersh L_gauss P_par.
Local Open Scope R_scope.

(** ** Counting functions of one level *)
Definition gcum (sigma e mu : R) : R := 1 / 2 + P ((e - mu) / (sigma * sqrt 2)) / sqrt PI.
Definition lcum (sigma e mu : R) : R := 1 / 2 + atan ((e - mu) / sigma) / PI.
Lemma lin_deriv mu k x : derivable_pt_lim (fun e => (e - mu) / k) x (/ k).
Proof.
  apply (deriv_ext _ _ ((1 - 0) * / k + (x - mu) * 0)); [|ring].
  apply (derivable_pt_lim_mult (fun e => e - mu) (fun _ => / k)); [|apply derivable_pt_lim_const].
  apply (derivable_pt_lim_minus id (fun _ => mu)); [apply derivable_pt_lim_id|apply derivable_pt_lim_const].
Qed.
Lemma sqrt2_facts : sqrt 2 * sqrt 2 = 2 /\ 0 < sqrt 2.
Proof. split; [apply sqrt_sqrt; lra|apply sqrt_lt_R0; lra]. Qed.
Lemma sqrtpi_facts : sqrt PI * sqrt PI = PI /\ 0 < sqrt PI.
Proof. pose proof PI_RGT_0. split; [apply sqrt_sqrt; lra|apply sqrt_lt_R0; lra]. Qed.
Lemma half_plus_deriv (F : R -> R) c x l : derivable_pt_lim F x l -> derivable_pt_lim (fun e => 1 / 2 + F e / c) x (l / c).
Proof.
  intros H. apply (deriv_ext _ _ (0 + (l * / c + F x * 0))); [|unfold Rdiv; ring].
  apply (derivable_pt_lim_plus (fun _ => 1 / 2) (fun e => F e / c)); [apply derivable_pt_lim_const|].
  apply (derivable_pt_lim_mult F (fun _ => / c)); [exact H|apply derivable_pt_lim_const].
Qed.
Lemma gcum_deriv sigma mu x : 0 < sigma -> derivable_pt_lim (fun e => gcum sigma e mu) x (gaussian sigma x mu).
Proof.
  intros Hs. destruct sqrt2_facts as (S2 & S2p). destruct sqrtpi_facts as (Sp & Spp).
  unfold gcum. apply (deriv_ext _ _ (bump ((x - mu) / (sigma * sqrt 2)) * / (sigma * sqrt 2) / sqrt PI)).
  - apply (half_plus_deriv (fun e => P ((e - mu) / (sigma * sqrt 2)))). apply (derivable_pt_lim_comp (fun e => (e - mu) / (sigma * sqrt 2)) P); [apply lin_deriv|apply P_deriv].
  - unfold gaussian, bump. rewrite sqrt_mult_alt by lra.
    replace (- ((x - mu) * (x - mu)) / (2 * (sigma * sigma))) with (- ((x - mu) / (sigma * sqrt 2) * ((x - mu) / (sigma * sqrt 2)))); [field; lra|].
    transitivity (- ((x - mu) * (x - mu)) / (sigma * sigma * (sqrt 2 * sqrt 2))); [field; lra|]. rewrite S2. field. lra.
Qed.
Lemma lcum_deriv sigma mu x : 0 < sigma -> derivable_pt_lim (fun e => lcum sigma e mu) x (lorentzian sigma x mu).
Proof.
  intros Hs. pose proof PI_RGT_0 as Hp. unfold lcum. apply (deriv_ext _ _ (/ (1 + ((x - mu) / sigma) ^ 2) * / sigma / PI)).
  - apply (half_plus_deriv (fun e => atan ((e - mu) / sigma))). apply (derivable_pt_lim_comp (fun e => (e - mu) / sigma) atan); [apply lin_deriv|apply derivable_pt_lim_atan].
  - unfold lorentzian. field. assert (0 < (x - mu) * (x - mu) + sigma * sigma) by (pose proof (Rle_0_sqr (x - mu)); unfold Rsqr in *; nra).
    repeat split; nra.
Qed.
Lemma scaled_up (F : R -> R) c mu l k : 0 < k -> tends_up F l -> tends_up (fun e => 1 / 2 + F ((e - mu) / k) / c) (1 / 2 + l / c).
Proof.
  intros Hk H eps He. destruct (Req_dec c 0) as [->|Hc].
  { exists 0. intros e _. unfold Rdiv. rewrite Rinv_0, !Rmult_0_r. replace (_ - _) with 0 by ring. rewrite Rabs_R0. exact He. }
  assert (Hac : 0 < Rabs c) by (apply Rabs_pos_lt, Hc). destruct (H (eps * Rabs c)) as (M & HM); [apply Rmult_lt_0_compat; assumption|]. exists (M * k + mu). intros e Hm.
  assert (M <= (e - mu) / k). { apply (Rmult_le_reg_r k); [exact Hk|]. unfold Rdiv. rewrite Rmult_assoc, Rinv_l by lra. lra. }
  replace (1 / 2 + F ((e - mu) / k) / c - (1 / 2 + l / c)) with ((F ((e - mu) / k) - l) / c) by (field; exact Hc). unfold Rdiv at 1. rewrite Rabs_mult, Rabs_inv.
  apply (Rmult_lt_reg_r (Rabs c)); [exact Hac|]. rewrite Rmult_assoc, Rinv_l, Rmult_1_r by lra. apply HM, H0.
Qed.
Lemma flip_tends F l : (forall x, F (- x) = - F x) -> tends_up F l -> tends_down F (- l).
Proof.
  intros Ho H eps He. destruct (H eps He) as (M & HM). exists (- M). intros e Hm. replace (F e - - l) with (- (F (- e) - l)) by (rewrite Ho; ring). rewrite Rabs_Ropp. apply HM. lra.
Qed.
Lemma scaled_down (F : R -> R) c mu l k : 0 < k -> tends_down F l -> tends_down (fun e => 1 / 2 + F ((e - mu) / k) / c) (1 / 2 + l / c).
Proof.
  intros Hk H eps He. destruct (scaled_up (fun x => F (- x)) c (- mu) l k Hk) with (eps := eps) as (M & HM); [|exact He|].
  - intros e' He'. destruct (H e' He') as (M & HM). exists (- M). intros e Hm. apply HM. lra.
  - exists (- M). intros e Hm. specialize (HM (- e) ltac:(lra)). cbv beta in HM. replace (- ((- e - - mu) / k)) with ((e - mu) / k) in HM by (field; lra). exact HM.
Qed.
Lemma tends_eq F l m : l = m -> tends_up F l -> tends_up F m.
Proof. intros <- H; exact H. Qed.
Lemma P_up : tends_up P (sqrt PI / 2).
Proof.
  intros eps He. set (M := 1 + 2 / eps). assert (HM : 1 < M) by (unfold M; assert (0 < 2 / eps) by (apply Rdiv_lt_0_compat; lra); lra).
  exists M. intros e Hm. apply (Rle_lt_trans _ _ _ (P_limit e ltac:(lra))).
  apply (Rmult_lt_reg_r (e * e)); [nra|]. rewrite Rmult_assoc, Rinv_l by nra. rewrite Rmult_1_r.
  assert (2 < eps * M). { unfold M. replace (eps * (1 + 2 / eps)) with (eps + 2) by (field; lra). lra. }
  assert (eps * M <= eps * (e * e)). { apply Rmult_le_compat_l; [lra|]. nra. } lra.
Qed.
Lemma atan_up : tends_up atan (PI / 2).
Proof.
  intros eps He. pose proof PI_RGT_0 as Hp. set (d := Rmin (eps / 2) (PI / 4)). assert (Hd : 0 < d) by (apply Rmin_pos; lra).
  assert (Hd2 : d <= PI / 4) by apply Rmin_r. assert (Hd3 : d <= eps / 2) by apply Rmin_l. exists (tan (PI / 2 - d)). intros e Hm.
  pose proof (atan_bound e) as B. assert (A : PI / 2 - d <= atan e).
  { rewrite <- (atan_tan (PI / 2 - d)) by lra. destruct Hm as [Hm|<-]; [left; apply atan_increasing, Hm|right; reflexivity]. }
  rewrite Rabs_left1 by lra. lra.
Qed.
Definition cum (b : basis) (sigma e mu : R) : R := match b with Gaussian => gcum sigma e mu | Lorentzian => lcum sigma e mu | OtherName => 0 end.
Lemma cum_counts b sigma f mu : 0 < sigma -> basis_func b sigma = Some f -> counts (fun e => f e mu) (fun e => cum b sigma e mu) 1.
Proof.
  intros Hs Hf. destruct sqrt2_facts as (S2 & S2p). destruct sqrtpi_facts as (Sp & Spp). pose proof PI_RGT_0 as Hp. assert (Hk : 0 < sigma * sqrt 2) by (apply Rmult_lt_0_compat; assumption).
  destruct b; try discriminate; injection Hf as <-; cbn [cum].
  - split; [|split].
    + intros e. apply gcum_deriv, Hs.
    + replace 0 with (1 / 2 + - (sqrt PI / 2) / sqrt PI) by (field; lra). apply (scaled_down P (sqrt PI) mu _ _ Hk). apply flip_tends; [apply P_odd|apply P_up].
    + apply (tends_eq _ (1 / 2 + (sqrt PI / 2) / sqrt PI)); [field; lra|]. apply (scaled_up P (sqrt PI) mu _ _ Hk). apply P_up.
  - split; [|split].
    + intros e. apply lcum_deriv, Hs.
    + replace 0 with (1 / 2 + - (PI / 2) / PI) by (field; lra). apply (scaled_down atan PI mu _ _ Hs). apply flip_tends; [apply atan_opp|apply atan_up].
    + apply (tends_eq _ (1 / 2 + (PI / 2) / PI)); [field; lra|]. apply (scaled_up atan PI mu _ _ Hs). apply atan_up.
Qed.

(** ** Sums of levels *)
Lemma tends_up_plus F G l m : tends_up F l -> tends_up G m -> tends_up (fun e => F e + G e) (l + m).
Proof.
  intros HF HG eps He. destruct (HF (eps / 2)) as (M & HM); [lra|]. destruct (HG (eps / 2)) as (M' & HM'); [lra|]. exists (Rmax M M'). intros e H.
  pose proof (Rmax_l M M'). pose proof (Rmax_r M M'). specialize (HM e ltac:(lra)). specialize (HM' e ltac:(lra)).
  replace (F e + G e - (l + m)) with ((F e - l) + (G e - m)) by ring. apply (Rle_lt_trans _ _ _ (Rabs_triang _ _)). lra.
Qed.
Lemma tends_up_scal F l c : tends_up F l -> tends_up (fun e => F e * c) (l * c).
Proof.
  intros HF eps He. destruct (HF (eps / (Rabs c + 1))) as (M & HM); [apply Rdiv_lt_0_compat; [lra|pose proof (Rabs_pos c); lra]|]. exists M. intros e H. specialize (HM e H).
  replace (F e * c - l * c) with ((F e - l) * c) by ring. rewrite Rabs_mult. pose proof (Rabs_pos c) as Pc. pose proof (Rabs_pos (F e - l)).
  assert (K : Rabs (F e - l) * (Rabs c + 1) < eps). { apply (Rmult_lt_compat_r (Rabs c + 1)) in HM; [|lra]. unfold Rdiv in HM. rewrite Rmult_assoc, Rinv_l, Rmult_1_r in HM by lra. exact HM. }
  nra.
Qed.
Lemma tends_flip F l : tends_down F l <-> tends_up (fun e => F (- e)) l.
Proof.
  split; intros H eps He; destruct (H eps He) as (M & HM); exists (- M); intros e Hm.
  - apply HM. lra.
  - specialize (HM (- e) ltac:(lra)). cbv beta in HM. rewrite Ropp_involutive in HM. exact HM.
Qed.
Lemma tends_up_const l : tends_up (fun _ => l) l.
Proof. intros eps He. exists 0. intros e _. replace (l - l) with 0 by ring. rewrite Rabs_R0. exact He. Qed.
Lemma counts_zero : counts (fun _ => 0) (fun _ => 0) 0.
Proof. split; [intros; apply derivable_pt_lim_const|]. split; [apply tends_flip|]; apply tends_up_const. Qed.
Lemma counts_plus d N t d' N' t' : counts d N t -> counts d' N' t' -> counts (fun e => d e + d' e) (fun e => N e + N' e) (t + t').
Proof.
  intros (A1 & A2 & A3) (B1 & B2 & B3). split; [|split].
  - intros e. apply derivable_pt_lim_plus; auto.
  - apply tends_flip. replace 0 with (0 + 0) by ring. apply (tends_up_plus (fun e => N (- e)) (fun e => N' (- e))); apply tends_flip; assumption.
  - apply tends_up_plus; assumption.
Qed.
Lemma counts_scal d N t c : counts d N t -> counts (fun e => d e * c) (fun e => N e * c) (t * c).
Proof.
  intros (A1 & A2 & A3). split; [|split].
  - intros e. apply (deriv_ext _ _ (d e * c + N e * 0)); [|ring]. apply (derivable_pt_lim_mult N (fun _ => c)); [apply A1|apply derivable_pt_lim_const].
  - apply tends_flip. replace 0 with (0 * c) by ring. apply (tends_up_scal (fun e => N (- e))). apply tends_flip, A2.
  - apply tends_up_scal, A3.
Qed.
Lemma counts_sum {A} (d N : A -> R -> R) (t : A -> R) l : (forall a, counts (d a) (N a) (t a)) ->
  counts (fun e => esum (map (fun a => d a e) l)) (fun e => esum (map (fun a => N a e) l)) (esum (map t l)).
Proof.
  intros H. induction l as [|a l IH]; [exact counts_zero|]. exact (counts_plus _ _ _ _ _ _ (H a) IH).
Qed.
Lemma density_counts b sigma f nk nb level w gs : 0 < sigma -> basis_func b sigma = Some f ->
  counts (density Rinv f nk nb level w gs) (density Rinv (cum b sigma) nk nb level w gs) (density Rinv (fun _ _ => 1) nk nb level w gs 0).
Proof.
  intros Hs Hf.
  assert (H1 : forall i j, counts (fun e => f e (level i j) * w i j) (fun e => cum b sigma e (level i j) * w i j) (1 * w i j))
    by (intros i j; apply (counts_scal (fun e => f e (level i j))), (cum_counts b sigma f _ Hs Hf)).
  pose proof (fun i => counts_sum _ _ _ (seq 0 nb) (H1 i)) as H2. pose proof (counts_sum _ _ _ (seq 0 nk) H2) as H3.
  exact (counts_scal _ _ _ gs (counts_scal _ _ _ (Rinv (sZ (Z.of_nat nk * Z.of_nat nb))) H3)).
Qed.

(** ** Grid *)
Lemma trunc_spec x : 0 <= x -> exists n, Rtrunc x = Z.of_nat n /\ INR n <= x < INR n + 1.
Proof.
  intros Hx. unfold Rtrunc, Rleb. destruct (Rle_dec 0 x) as [_|]; [|contradiction]. destruct (base_Int_part x) as (A & B).
  assert (0 <= Int_part x)%Z. { apply Z.lt_succ_r, lt_IZR. rewrite succ_IZR. lra. }
  exists (Z.to_nat (Int_part x)). rewrite INR_IZR_INZ, Z2Nat.id by assumption. split; [reflexivity|]. lra.
Qed.
Lemma trunc_neg x : x <= 0 -> exists n, Rtrunc x = (- Z.of_nat n)%Z /\ INR n <= - x < INR n + 1.
Proof.
  intros Hx. unfold Rtrunc, Rleb. destruct (Rle_dec 0 x) as [H|_].
  - replace x with 0 by lra. exists 0%nat. assert (E : Int_part 0 = 0%Z).
    { destruct (base_Int_part 0) as (A & B). apply Z.le_antisymm; [apply le_IZR; lra|]. apply Z.lt_succ_r, lt_IZR. rewrite succ_IZR. lra. }
    rewrite E. split; [reflexivity|]. cbn. lra.
  - destruct (base_Int_part (- x)) as (A & B). assert (0 <= Int_part (- x))%Z. { apply Z.lt_succ_r, lt_IZR. rewrite succ_IZR. lra. }
    exists (Z.to_nat (Int_part (- x))). rewrite INR_IZR_INZ, Z2Nat.id by assumption. split; [reflexivity|]. lra.
Qed.
Lemma zrange_nth k i : (i < k)%nat -> nth i (zrange k) 0%Z = Z.of_nat i.
Proof. intros H. unfold zrange. rewrite (nth_indep _ 0%Z (Z.of_nat 0)) by (rewrite map_length, seq_length; exact H). rewrite map_nth, seq_nth by exact H. reflexivity. Qed.
Notation grid := (dos_grid Rleb Rinv Rtrunc).
Theorem C89_grid : forall nk nb bands lo hi step, 0 < step -> lo <= hi ->
  exists n en, grid nk nb bands (Some lo) (Some hi) step = Ok en /\ length en = S n /\
    INR n * step <= hi - lo < (INR n + 1) * step /\ nth 0 en 0 = lo /\
    ((0 < n)%nat -> nth n en 0 = hi /\ exists h, step <= h < 2 * step /\ forall i, (i < n)%nat -> nth (S i) en 0 - nth i en 0 = h).
Proof.
  intros nk nb bands lo hi step Hs Hr. assert (Q : 0 <= (hi - lo) * / step) by (apply Rmult_le_pos; [lra|left; apply Rinv_0_lt_compat, Hs]).
  destruct (trunc_spec _ Q) as (n & E & A & B). unfold dos_grid, bind. change (smul (ssub hi lo) (/ step)) with ((hi - lo) * / step). rewrite E.
  unfold linspace. destruct (Z.ltb_spec (Z.of_nat n + 1) 0) as [|_]; [lia|]. replace (Z.to_nat (Z.of_nat n + 1)) with (S n) by lia. replace (Z.of_nat n + 1 - 1)%Z with (Z.of_nat n) by lia.
  set (g := fun i : Z => _ : R). exists n, (map g (zrange (S n))). split; [reflexivity|]. split; [rewrite map_length; unfold zrange; rewrite map_length, seq_length; reflexivity|].
  assert (I1 : INR n * step <= hi - lo < (INR n + 1) * step).
  { split. - apply (Rmult_le_compat_r step) in A; [|lra]. rewrite Rmult_assoc, Rinv_l in A by lra. lra.
    - apply (Rmult_lt_compat_r step) in B; [|lra]. rewrite Rmult_assoc, Rinv_l in B by lra. lra. }
  split; [exact I1|].
  assert (N : forall i, (i <= n)%nat -> nth i (map g (zrange (S n))) 0 = lo + INR i * ((hi - lo) * / INR n)).
  { intros i Hi. rewrite (nth_indep _ 0 (g 0%Z)) by (rewrite map_length; unfold zrange; rewrite map_length, seq_length; lia). rewrite map_nth, zrange_nth by lia.
    unfold g. cbn. rewrite <- !INR_IZR_INZ. reflexivity. }
  split; [rewrite N by lia; cbn [INR]; ring|]. intros Hn. assert (Hp : 1 <= INR n) by (apply (le_INR 1); lia).
  split; [rewrite N by lia; field; lra|]. exists ((hi - lo) / INR n). split.
  - split; [apply (Rmult_le_reg_r (INR n)); [lra|]; unfold Rdiv; rewrite Rmult_assoc, Rinv_l by lra; lra|].
    apply (Rmult_lt_reg_r (INR n)); [lra|]. unfold Rdiv; rewrite Rmult_assoc, Rinv_l by lra. nra.
  - intros i Hi. rewrite !N by lia. rewrite S_INR. unfold Rdiv. ring.
Qed.
(** A range that runs backwards gives an empty grid or is refused. *)
Theorem C89_reversed : forall nk nb bands lo hi step, 0 < step -> step <= lo - hi ->
  grid nk nb bands (Some lo) (Some hi) step = if Rleb (2 * step) (lo - hi) then Err ValueError else Ok [].
Proof.
  intros nk nb bands lo hi step Hs Hr. assert (Q : (hi - lo) * / step <= -1).
  { apply (Rmult_le_reg_r step); [exact Hs|]. rewrite Rmult_assoc, Rinv_l by lra. lra. }
  destruct (trunc_neg ((hi - lo) * / step) ltac:(lra)) as (n & E & A & B). unfold dos_grid, bind. change (smul (ssub hi lo) (/ step)) with ((hi - lo) * / step). rewrite E.
  replace (- ((hi - lo) * / step)) with ((lo - hi) * / step) in A, B by ring.
  apply (Rmult_le_compat_r step) in A; [|lra]. apply (Rmult_lt_compat_r step) in B; [|lra]. rewrite Rmult_assoc, Rinv_l in A, B by lra.
  assert (N1 : (1 <= n)%nat). { destruct n as [|n]; [|lia]. cbn in B. lra. }
  unfold linspace, Rleb. destruct (Rle_dec (2 * step) (lo - hi)) as [H|H].
  - assert (2 <= n)%nat. { destruct n as [|[|n]]; [lia| |lia]. cbn in B. lra. } destruct (Z.ltb_spec (- Z.of_nat n + 1) 0); [reflexivity|lia].
  - assert (n = 1)%nat. { destruct n as [|[|n]]; [lia|reflexivity|]. rewrite !S_INR in A. pose proof (pos_INR n). nra. } subst n. reflexivity.
Qed.
(** Bounds that are left out are the smallest and the largest level. *)
Lemma best_min l x : exists m, best Rleb (x :: l) = Ok m /\ smallest m (x :: l).
Proof.
  cbn [best]. eexists. split; [reflexivity|]. revert x. induction l as [|y l IH]; intros x; cbn [fold_left].
  - split; [left; reflexivity|]. intros z [<-|[]]. lra.
  - unfold Rleb at 2. destruct (Rle_dec y x) as [H|H]; [destruct (IH y) as (A & B)|destruct (IH x) as (A & B)]; split.
    + right. exact A.
    + intros z [<-|Hz]; [specialize (B y (or_introl eq_refl)); lra|apply B, Hz].
    + destruct A as [A|A]; [left; exact A|right; right; exact A].
    + intros z [<-|[<-|Hz]]; [apply B; left; reflexivity|specialize (B x (or_introl eq_refl)); lra|apply B; right; exact Hz].
Qed.
Lemma best_max l x : exists m, best (fun a b => Rleb b a) (x :: l) = Ok m /\ largest m (x :: l).
Proof.
  cbn [best]. eexists. split; [reflexivity|]. revert x. induction l as [|y l IH]; intros x; cbn [fold_left].
  - split; [left; reflexivity|]. intros z [<-|[]]. lra.
  - unfold Rleb at 2. destruct (Rle_dec x y) as [H|H]; [destruct (IH y) as (A & B)|destruct (IH x) as (A & B)]; split.
    + right. exact A.
    + intros z [<-|Hz]; [specialize (B y (or_introl eq_refl)); lra|apply B, Hz].
    + destruct A as [A|A]; [left; exact A|right; right; exact A].
    + intros z [<-|[<-|Hz]]; [apply B; left; reflexivity|specialize (B x (or_introl eq_refl)); lra|apply B; right; exact Hz].
Qed.
Lemma entries_levels nk nb (bands : arr (Z * Z) R) :
  entries (Z.of_nat nk) (Z.of_nat nb) bands = all_levels nk nb (fun i j => bands (Z.of_nat i, Z.of_nat j)).
Proof.
  unfold entries, all_levels, zrange. rewrite !Nat2Z.id, !flat_map_concat_map, map_map. f_equal. apply map_ext. intros i. rewrite map_map. reflexivity.
Qed.
Theorem C89_default_range : forall nk nb bands step, let l := all_levels nk nb (fun i j => bands (Z.of_nat i, Z.of_nat j)) in
  ((nk * nb = 0)%nat -> forall hi, grid (Z.of_nat nk) (Z.of_nat nb) bands None hi step = Err ValueError) /\
  ((nk * nb = 0)%nat -> forall lo, grid (Z.of_nat nk) (Z.of_nat nb) bands lo None step = Err ValueError) /\
  ((0 < nk * nb)%nat -> exists a b, smallest a l /\ largest b l /\ a <= b /\
     forall lo hi, grid (Z.of_nat nk) (Z.of_nat nb) bands lo hi step =
       grid (Z.of_nat nk) (Z.of_nat nb) bands (Some match lo with Some x => x | None => a end) (Some match hi with Some x => x | None => b end) step).
Proof.
  intros nk nb bands step l.
  assert (E : (nk * nb = 0)%nat -> entries (Z.of_nat nk) (Z.of_nat nb) bands = []).
  { intros H. rewrite entries_levels. unfold all_levels. destruct nk as [|nk]; [reflexivity|]. assert (nb = 0%nat) as -> by nia.
    generalize (seq 0 (S nk)). clear. intros q. induction q; [reflexivity|assumption]. }
  split; [|split].
  - intros H hi. unfold dos_grid. rewrite (E H). reflexivity.
  - intros H lo. unfold dos_grid. rewrite (E H). destruct lo; reflexivity.
  - intros H. pose proof (entries_levels nk nb bands) as EL. fold l in EL.
    destruct l as [|x r] eqn:El.
    { exfalso. assert (L : In (bands (Z.of_nat 0, Z.of_nat 0)) l); [|rewrite El in L; exact L]. unfold l, all_levels. apply in_flat_map. exists 0%nat. split; [apply in_seq; nia|]. apply in_map_iff. exists 0%nat. split; [reflexivity|apply in_seq; nia]. }
    destruct (best_min r x) as (a & Ha & Sa). destruct (best_max r x) as (b & Hb & Sb). exists a, b. split; [exact Sa|]. split; [exact Sb|]. split; [apply Sb, Sa|].
    intros lo hi. unfold dos_grid. rewrite EL, Ha, Hb. destruct lo, hi; reflexivity.
Qed.

(** ** Shapes of the two functions *)
Theorem C89_shape : forall b sigma f mu, 0 < sigma -> basis_func b sigma = Some f ->
  (forall x, 0 < f x mu <= f mu mu) /\ (forall t, f (mu + t) mu = f (mu - t) mu) /\
  (forall x y, Rabs (x - mu) < Rabs (y - mu) -> f y mu < f x mu) /\
  (let half := match b with Gaussian => sigma * sqrt (2 * ln 2) | _ => sigma end in f (mu + half) mu = f mu mu / 2).
Proof.
  intros b sigma f mu Hs Hf. pose proof PI_RGT_0 as Hp. assert (Hq : 0 < sqrt (2 * PI)) by (apply sqrt_lt_R0; lra).
  assert (Sq : forall x y, Rabs x < Rabs y -> x * x < y * y). { intros x y H. apply Rsqr_lt_abs_1 in H. exact H. }
  destruct b; try discriminate; injection Hf as <-.
  - assert (Ha : 0 < 1 / (sigma * sqrt (2 * PI))) by (apply Rdiv_lt_0_compat; [lra|apply Rmult_lt_0_compat; assumption]).
    assert (Mono : forall x y, Rabs (x - mu) < Rabs (y - mu) -> gaussian sigma y mu < gaussian sigma x mu).
    { intros x y H. unfold gaussian. apply Rmult_lt_compat_l; [exact Ha|]. apply exp_increasing. apply Sq in H. unfold Rdiv. apply Rmult_lt_compat_r; [apply Rinv_0_lt_compat; nra|lra]. }
    split; [|split; [|split; [exact Mono|]]].
    + intros x. split; [apply Rmult_lt_0_compat; [exact Ha|apply exp_pos]|]. destruct (Req_dec x mu) as [->|H]; [lra|]. left. apply Mono. replace (mu - mu) with 0 by ring. rewrite Rabs_R0. apply Rabs_pos_lt. lra.
    + intros t. unfold gaussian. do 2 f_equal. f_equal. ring.
    + cbv zeta. unfold gaussian. assert (L : 0 < ln 2) by (rewrite <- ln_1; apply ln_increasing; lra).
      replace (- ((mu + sigma * sqrt (2 * ln 2) - mu) * (mu + sigma * sqrt (2 * ln 2) - mu)) / (2 * (sigma * sigma))) with (- ln 2).
      * rewrite exp_Ropp, exp_ln by lra. replace (- ((mu - mu) * (mu - mu)) / (2 * (sigma * sigma))) with 0 by (field; lra). rewrite exp_0. unfold Rdiv. ring.
      * transitivity (- (sqrt (2 * ln 2) * sqrt (2 * ln 2)) / 2); [rewrite sqrt_sqrt by lra; field|field; lra].
  - assert (Ha : 0 < 1 / (PI * sigma)) by (apply Rdiv_lt_0_compat; [lra|apply Rmult_lt_0_compat; assumption]).
    assert (Dp : forall x, 0 < (x - mu) * (x - mu) + sigma * sigma) by (intros x; pose proof (Rle_0_sqr (x - mu)); unfold Rsqr in *; nra).
    assert (Mono : forall x y, Rabs (x - mu) < Rabs (y - mu) -> lorentzian sigma y mu < lorentzian sigma x mu).
    { intros x y H. unfold lorentzian. apply Rmult_lt_compat_l; [exact Ha|]. apply Sq in H. unfold Rdiv. apply Rmult_lt_compat_l; [nra|]. apply Rinv_lt_contravar; [apply Rmult_lt_0_compat; apply Dp|lra]. }
    split; [|split; [|split; [exact Mono|]]].
    + intros x. split; [apply Rmult_lt_0_compat; [exact Ha|apply Rdiv_lt_0_compat; [nra|apply Dp]]|]. destruct (Req_dec x mu) as [->|H]; [lra|]. left. apply Mono. replace (mu - mu) with 0 by ring. rewrite Rabs_R0. apply Rabs_pos_lt. lra.
    + intros t. unfold lorentzian. do 2 f_equal. ring.
    + cbv zeta. unfold lorentzian. field. repeat split; nra.
Qed.

(** ** calc_dos *)
Lemma esum_const l c : esum (map (fun _ : nat => c) l) = INR (length l) * c.
Proof. induction l as [|x l IH]; [cbn; ring|]. cbn [map]. change (esum (c :: ?r)) with (c + esum r). rewrite IH. cbn [length]. rewrite S_INR. ring. Qed.
Lemma density_total nk nb level gs : (0 < nk * nb)%nat -> density Rinv (fun _ _ => 1) nk nb level (fun _ _ => 1) gs 0 = gs.
Proof.
  intros H. unfold density. cbn [smul sZ]. erewrite map_ext; [|intros i; erewrite map_ext; [|intros j; exact (Rmult_1_l 1)]; rewrite esum_const; reflexivity]. rewrite esum_const, !seq_length.
  rewrite Rmult_1_r, <- mult_INR, <- Nat2Z.inj_mul. change (sZ (Z.of_nat (nk * nb))) with (IZR (Z.of_nat (nk * nb))). rewrite <- INR_IZR_INZ. change (INR (nk * nb) * / INR (nk * nb) * gs = gs). rewrite Rinv_r; [ring|]. apply not_0_INR. lia.
Qed.
Lemma esum_nonneg {A} (g : A -> R) l : (forall a, In a l -> 0 <= g a) -> 0 <= esum (map g l).
Proof.
  induction l as [|x l IH]; intros H; [cbn; lra|]. change (0 <= g x + esum (map g l)). specialize (IH (fun a Ha => H a (or_intror Ha))). specialize (H x (or_introl eq_refl)). lra.
Qed.
Lemma esum_eq {A} (g h : A -> R) l : (forall a, In a l -> g a = h a) -> esum (map g l) = esum (map h l).
Proof. intros H. f_equal. apply map_ext_in, H. Qed.
Section Dos.
  Context (E : Type) (SE : Scalar E) (EL : ScalarLaws E) (solve : vec R -> res (list R * list (list E))) (order : list R -> list Z) (absq : E -> R).
  Theorem C89_states : forall mpi size kpts nb no orbs eig vecs lo hi st b sigma f gs en,
    (0 < size)%Z -> (mpi = true \/ size = 1%Z) -> (0 < nb)%Z -> kpts <> [] ->
    solved solve kpts nb no eig vecs -> (forall i, ordered order (eig i)) ->
    (match orbs with Some o => forall x, In x o -> (0 <= x < no)%Z | None => True end) ->
    let sel i j := Z.to_nat (nth j (order (eig i)) 0%Z) in
    let level i j := nth (sel i j) (eig i) 0 in
    let w i j := match orbs with Some o => weight absq (nth (sel i j) (vecs i) []) o | None => 1 end in
    0 < sigma -> basis_func b sigma = Some f ->
    grid (Z.of_nat (length kpts)) nb (fun q => level (Z.to_nat (fst q)) (Z.to_nat (snd q))) lo hi st = Ok en ->
    exists out d N total, calc_dos solve order absq Rleb Rinv Rtrunc mpi size kpts nb orbs lo hi st (Some f) gs = Ok out /\ length out = Z.to_nat size /\
      (forall en' dos, In (en', dos) out -> en' = en /\ forall g, (g < length en)%nat -> dos (Z.of_nat g) = d (nth g en 0)) /\
      counts d N total /\
      total = esum (map (fun i => esum (map (w i) (seq 0 (Z.to_nat nb)))) (seq 0 (length kpts))) / (INR (length kpts) * IZR nb) * gs /\
      ((forall i j, (i < length kpts)%nat -> (j < Z.to_nat nb)%nat -> w i j = 1) -> total = gs) /\
      ((forall i j, (i < length kpts)%nat -> (j < Z.to_nat nb)%nat -> 0 <= w i j) -> 0 <= gs -> forall e, 0 <= d e).
  Proof.
    intros mpi size kpts nb no orbs eig vecs lo hi st b sigma f gs en Hsz Hm Hnb Hk Hso Ho Horb sel level w Hs Hf Hg.
    destruct (C27_dos E R SE RScalar RLaws solve order absq Rleb Rinv Rtrunc mpi size kpts nb no orbs eig vecs lo hi st f gs en Hsz Hm ltac:(lia) Hso Ho Horb Hg) as (out & Hout & Hl & Hd).
    set (nk := length kpts) in *. assert (Hnk : 1 <= INR nk) by (apply (le_INR 1); unfold nk; destruct kpts; [congruence|cbn; lia]).
    assert (Hnb' : 1 <= IZR nb) by (apply (IZR_le 1); lia).
    exists out, (density Rinv f nk (Z.to_nat nb) level w gs), (density Rinv (cum b sigma) nk (Z.to_nat nb) level w gs), (density Rinv (fun _ _ => 1) nk (Z.to_nat nb) level w gs 0).
    split; [exact Hout|]. split; [exact Hl|]. split; [exact Hd|]. split; [apply density_counts; assumption|].
    assert (T : density Rinv (fun _ _ => 1) nk (Z.to_nat nb) level w gs 0 = esum (map (fun i => esum (map (w i) (seq 0 (Z.to_nat nb)))) (seq 0 nk)) / (INR nk * IZR nb) * gs).
    { unfold density. rewrite Z2Nat.id by lia. change (sZ (Z.of_nat nk * nb)) with (IZR (Z.of_nat nk * nb)). rewrite mult_IZR, <- INR_IZR_INZ.
      erewrite map_ext; [|intros i; erewrite map_ext; [reflexivity|intros j; exact (Rmult_1_l (w i j))]]. reflexivity. }
    split; [exact T|]. split.
    - intros H1. rewrite T. rewrite (esum_eq _ (fun _ => IZR nb)).
      + rewrite esum_const, seq_length. field. lra.
      + intros i Hi%in_seq. rewrite (esum_eq _ (fun _ => 1)) by (intros j Hj%in_seq; apply H1; lia). rewrite esum_const, seq_length, INR_IZR_INZ, Z2Nat.id by lia. ring.
    - intros Hw Hgs e. unfold density. apply Rmult_le_pos; [|exact Hgs]. rewrite Z2Nat.id by lia. change (sZ (Z.of_nat nk * nb)) with (IZR (Z.of_nat nk * nb)).
      apply Rmult_le_pos; [|left; apply Rinv_0_lt_compat; rewrite mult_IZR, <- INR_IZR_INZ; nra].
      apply esum_nonneg. intros i Hi%in_seq. apply esum_nonneg. intros j Hj%in_seq. apply Rmult_le_pos; [|apply Hw; lia].
      left. destruct (C89_shape b sigma f (level i j) Hs Hf) as (A & _). apply A.
  Qed.
  (** An illegal name is refused whatever the rest. *)
  Theorem C89_illegal : forall mpi size kpts nb no orbs eig vecs lo hi st sigma gs, (0 < size)%Z -> (mpi = true \/ size = 1%Z) ->
    solved solve kpts nb no eig vecs -> (forall i, ordered order (eig i)) ->
    (match orbs with Some o => forall x, In x o -> (0 <= x < no)%Z | None => True end) ->
    calc_dos solve order absq Rleb Rinv Rtrunc mpi size kpts nb orbs lo hi st (basis_func OtherName sigma) gs = Err ValueError.
  Proof.
    intros mpi size kpts nb no orbs eig vecs lo hi st sigma gs Hsz Hm Hso Ho Horb.
    destruct (C27_bands E R SE RScalar RLaws solve order absq mpi size kpts nb no orbs eig vecs Hsz Hm Hso Ho Horb) as (bps & Hb & Hl & _).
    unfold calc_dos. rewrite Hb. unfold bind at 1. destruct bps as [|bp bps]; [cbn in Hl; lia|].
    assert (D : forall r, dos_local Rleb Rinv Rtrunc size r (Z.of_nat (length kpts)) nb bp lo hi st None = Err ValueError).
    { intros r. unfold dos_local, dos_grid. destruct lo as [lo|], hi as [hi|], (@entries R (Z.of_nat (length kpts)) nb (fst bp)); unfold best, bind; try reflexivity; unfold linspace;
        match goal with |- context [if ?c then _ else _] => destruct c end; reflexivity. }
    unfold enum. cbn [length]. cbn [basis_func]. cbn. rewrite D. reflexivity.
  Qed.
End Dos.
Print Assumptions C89_grid.
Print Assumptions C89_reversed.
Print Assumptions C89_default_range.
Print Assumptions C89_shape.
Print Assumptions C89_states.
Print Assumptions C89_illegal.

(** A range of 0.13 eV with a step of 0.05 eV: three points, 0.065 eV apart. *)
Example C89_grid_example : grid 1 1 (fun _ => 0) (Some (-1)) (Some (-1 + 13 / 100)) (5 / 100) =
  Ok [-1; -1 + 65 / 1000; -1 + 13 / 100].
Proof.
  unfold dos_grid, bind. change (smul (ssub (-1 + 13 / 100) (-1)) (/ (5 / 100))) with ((-1 + 13 / 100 - -1) * / (5 / 100)).
  destruct (trunc_spec ((-1 + 13 / 100 - -1) * / (5 / 100))) as (n & -> & A & B); [lra|].
  assert (n = 2)%nat as ->. { assert (INR 1 < INR n < INR 3) as (C & D) by (cbn; lra). apply INR_lt in C, D. lia. }
  unfold linspace. cbn. change (Pos.to_nat 3) with 3%nat. cbn.
  match goal with |- Ok ?a = Ok ?b => assert (H : a = b); [|rewrite H; reflexivity] end.
  repeat match goal with |- ?x :: ?r = ?y :: ?q => assert (Hx : x = y) by lra; rewrite Hx; clear Hx; apply (f_equal (cons y)) end. reflexivity.
Qed.
(** Two levels of one k-point, Lorentzian of width 1, a single energy. *)
Definition pair_solve (k : vec R) : res (list R * list (list R)) := Ok ([0; 2], [[1; 0]; [0; 1]]).
Example C89_states_example :
  solved pair_solve [(0, 0, 0)] 2 2 (fun _ => [0; 2]) (fun _ => [[1; 0]; [0; 1]]) /\
  exists out, calc_dos pair_solve (fun l => zrange (length l)) (fun x => x * x) Rleb Rinv Rtrunc true 1 [(0, 0, 0)] 2 None (Some 1) (Some 1) 1 (basis_func Lorentzian 1) 2 = Ok out /\
    match out with [(en, d)] => en = [1] /\ d 0%Z = / PI | _ => False end.
Proof.
  split.
  { intros i k Hk. destruct i as [|i]; [|destruct i; discriminate]. injection Hk as <-. repeat split; try reflexivity. intros v [<-|[<-|[]]]; reflexivity. }
  assert (T0 : Rtrunc ((1 - 1) * / 1) = 0%Z).
  { destruct (trunc_spec ((1 - 1) * / 1)) as (n & -> & A & B); [lra|]. destruct n as [|n]; [reflexivity|]. rewrite S_INR in A. pose proof (pos_INR n). lra. }
  unfold calc_dos, dos_local, dos_grid. cbn -[Rtrunc linspace]. rewrite T0. cbn -[Rtrunc]. eexists. split; [reflexivity|]. change (Pos.to_nat 1) with 1%nat. change (Pos.to_nat 2) with 2%nat. cbn.
  split; [apply (f_equal (fun x => [x])); ring|]. change (Pos.to_nat 1) with 1%nat. unfold zeros. cbn. pose proof PI_RGT_0. replace (1 + 0 * ((1 - 1) * / 0)) with 1 by ring. unfold lorentzian. change (Pos.to_nat 1) with 1%nat. cbv iota. field. lra.
Qed.
