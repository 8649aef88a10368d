(** Snapshots of a wave function (C42), the series of Bessel functions (C63). *)
From Coq Require Import Sorted QArith Qcanon.
From Verif Require Import Prelude Vec Cx Qs M_super M_sample M_par M_prop M_tbpm S_prop S_tbpm
  L_base L_super L_csr L_prop L_prop2 L_tbpm L_tbpm2 L_psi P_tbpm.
Local Open Scope Z_scope.

(** ** C42 *)
(** What calc_psi_t(psi0, time_log) returns: nothing else than one of the
    errors, or one row per distinct requested step, in increasing order; the
    row of step t is psi0 / |psi0| after exactly t time steps. *)
Theorem C42_snapshots : forall (E : Type) (SE : Scalar E), ScalarLaws E ->
  forall (conj : E -> E) (img : E) (inv : E -> E) (is0 : E -> bool) (re sqrt : E -> E) (bad : E -> E -> bool)
         (m : spm E) (n : nat) (x : nat -> E) (psi0 : list E) (size : Z) (log : list Z) (nt : nat) (chk : Z)
         (jv : Z -> E) (gt : E -> bool) (bmax : Z),
  smul img img = sopp s1 -> csr_ok n (p_indptr m) (p_indices m) (p_values m) -> holds n x psi0 ->
  let r := calc_psi_t conj img inv is0 re sqrt bad size jv gt bmax m psi0 log (Z.of_nat nt) chk in
  let nrm := sqrt (re (inner conj n x x)) in
  (size <> 1 -> r = Err RuntimeError) /\
  (size = 1 -> is0 nrm = false ->
   ((exists t, In t log /\ ~ 0 <= t <= Z.of_nat nt) -> r = Err ValueError) /\
   ((forall t, In t log -> 0 <= t <= Z.of_nat nt) ->
    (forall e, bessel_series jv gt bmax = Err e -> r = Err e) /\
    (forall bes, bessel_series jv gt bmax = Ok bes -> (3 <= length bes)%nat -> log <> [] ->
     let y := scaled (inv nrm) x in
     (norm_bad conj n bad 1 (Z.of_nat nt) chk (fun t => evolved img n (matrix m) bes t y) y = true -> r = Err RuntimeError) /\
     (norm_bad conj n bad 1 (Z.of_nat nt) chk (fun t => evolved img n (matrix m) bes t y) y = false ->
      exists ts rows, r = Ok (map Some rows) /\ StronglySorted Z.lt ts /\ (forall t, In t ts <-> In t log) /\
        Forall2 (fun t row => holds n (evolved img n (matrix m) bes (Z.to_nat t) y) row) ts rows)))).
Proof.
  intros E SE EL conj img inv is0 re sqrt bad m n x psi0 size log nt chk jv gt bmax Himg Hwf Hx r nrm.
  apply holds_eq in Hx. subst psi0. unfold r, calc_psi_t. split.
  - intros Hs. replace (size =? 1) with false by (symmetry; apply Z.eqb_neq; exact Hs). reflexivity.
  - intros -> Hn. cbn [Z.eqb Pos.eqb negb]. unfold pdiv, norm. rewrite inner_prod_tab. unfold nrm in Hn. rewrite Hn. fold nrm in Hn |- *. cbn [M_prop.num bind]. rewrite map_tab.
    cbv zeta. split.
    + intros (t & Ht & Hr). replace (existsb _ (sorted_set log)) with true; [reflexivity|]. symmetry. apply existsb_exists. exists t.
      split; [apply In_sorted_set; exact Ht|]. lia.
    + intros Hin. replace (existsb _ (sorted_set log)) with false.
      2: { symmetry. apply Bool.not_true_is_false. intros H. apply existsb_exists in H. destruct H as (t & Ht & H). pose proof (Hin t (proj1 (In_sorted_set t log) Ht)). lia. }
      split.
      * intros e ->. reflexivity.
      * intros bes -> Hb Hne. cbn [bind].
        rewrite (psi_t_tab EL conj img bad Himg m n Hwf bes Hb (fun i => smul (x i) (inv nrm)) (sorted_set log) nt chk (sorted_set_sorted log)).
        2: { intros H. destruct log as [|t l]; [congruence|]. assert (Hi : In t (sorted_set (t :: l))) by (apply In_sorted_set; left; reflexivity). rewrite H in Hi. destruct Hi. }
        2: { intros t Ht. apply Hin, In_sorted_set, Ht. }
        split; intros Hnb; change (scaled (inv nrm) x) with (fun i => smul (x i) (inv nrm)) in Hnb; change (mat_of m) with (matrix m); rewrite Hnb; [reflexivity|].
        exists (sorted_set log), (map (fun t => tab n (evolved img n (matrix m) bes (Z.to_nat t) (scaled (inv nrm) x))) (sorted_set log)).
        split; [rewrite map_map; reflexivity|]. split; [apply sorted_set_sorted|]. split; [intros t; apply In_sorted_set|].
        induction (sorted_set log) as [|t l IH]; [constructor|]. cbn [map]. constructor; [apply holds_tab|exact IH].
Qed.
Print Assumptions C42_snapshots.

Definition q_sqrt (a : GQ) : GQ := a.
(** psi0 = (2, 1), norm 5 before the (trivial) root; steps 2, 0, 2 of 3. *)
Example C42_example :
  match calc_psi_t qconj qi qinv q_is0 qreal q_sqrt q_bad 1 jvq gtq 10 spmq [sZ 2; sZ 1] [2; 0; 2] 3 9 with
  | Ok [Some r0; Some r2] => map show r0 = [(2 # 5, 0); (1 # 5, 0)]%Q /\ length r2 = 2%nat /\ r2 <> r0
  | _ => False
  end /\
  calc_psi_t qconj qi qinv q_is0 qreal q_sqrt q_bad 1 jvq gtq 10 spmq [sZ 2; sZ 1] [2; 4] 3 9 = Err ValueError /\
  calc_psi_t qconj qi qinv q_is0 qreal q_sqrt q_bad 2 jvq gtq 10 spmq [sZ 2; sZ 1] [2; 3] 3 9 = Err RuntimeError.
Proof. vm_compute. repeat split; try reflexivity. discriminate. Qed.

(** The rows do not follow the caller's list: step 1 asked first comes second. *)
Theorem C42_order_refuted : exists (log : list Z) (rows : list (list GQ)) (bes : list GQ) (row : list GQ),
  calc_psi_t qconj qi qinv q_is0 qreal q_sqrt q_bad 1 jvq gtq 10 spmq [sZ 2; sZ 1] log 3 9 = Ok (map Some rows) /\
  bessel_series jvq gtq 10 = Ok bes /\
  nth_error log 0 = Some 1 /\ nth_error rows 0 = Some row /\
  ~ holds 2 (evolved qi 2 (matrix spmq) bes 1 (scaled (qinv (sZ 5)) (fun i => nth i [sZ 2; sZ 1] s0))) row.
Proof.
  exists [1; 0]. do 3 eexists. split; [vm_compute; match goal with |- Ok [Some ?a; Some ?b] = _ => instantiate (1 := [a; b]); reflexivity end|].
  split; [reflexivity|]. split; [reflexivity|]. split; [reflexivity|].
  intros [_ H]. specialize (H 0%nat ltac:(lia)). apply (f_equal (option_map show)) in H. vm_compute in H. discriminate H.
Qed.
Print Assumptions C42_order_refuted.
(** Repeated steps are dropped: fewer rows than requests. *)
Theorem C42_repeated_refuted : exists (log : list Z) (rows : list (list GQ)),
  calc_psi_t qconj qi qinv q_is0 qreal q_sqrt q_bad 1 jvq gtq 10 spmq [sZ 2; sZ 1] log 3 9 = Ok (map Some rows) /\ length rows <> length log.
Proof.
  exists [1; 1]. eexists. split; [vm_compute; match goal with |- Ok [Some ?a] = _ => instantiate (1 := [a]); reflexivity end|]. discriminate.
Qed.
Print Assumptions C42_repeated_refuted.
(** No requested step at all: the program reads time_log(1) of an empty array. *)
Theorem C42_empty_refuted :
  calc_psi_t qconj qi qinv q_is0 qreal q_sqrt q_bad 1 jvq gtq 10 spmq [sZ 2; sZ 1] [] 3 9 = Err IndexError.
Proof. vm_compute. reflexivity. Qed.
Print Assumptions C42_empty_refuted.

(** ** C63 *)
(** The series of Bessel functions ends before the first order i whose value
    and whose successor are both within the precision; all values below i are
    kept, whatever their size.  ValueError exactly if there is no such order
    below Bessel_max. *)
Theorem C63_bessel : forall (E : Type) (jv : Z -> E) (gt : E -> bool) (bmax : Z),
  let small i := gt (jv i) = false /\ gt (jv (i + 1)) = false in
  match bessel_series jv gt bmax with
  | Ok l => exists k, 0 <= k < bmax /\ small k /\ (forall j, 0 <= j < k -> ~ small j) /\
              Z.of_nat (length l) = k /\ forall j, 0 <= j < k -> nth_error l (Z.to_nat j) = Some (jv j)
  | Err e => e = ValueError /\ forall j, 0 <= j < bmax -> ~ small j
  end.
Proof.
  intros E jv gt bmax small. unfold bessel_series. pose proof (bessel_from_spec jv gt (Z.to_nat bmax) 0) as H. unfold small_pair in H.
  destruct (bessel_from jv gt (Z.to_nat bmax) 0) as [l|].
  - destruct H as (k & Hk & Hs & Hb & ->). exists (Z.of_nat k). split; [lia|]. split; [exact Hs|]. split.
    + intros j Hj. specialize (Hb (Z.to_nat j) ltac:(lia)). rewrite Z2Nat.id in Hb by lia. exact Hb.
    + rewrite map_length, seq_length. split; [reflexivity|]. intros j Hj. rewrite nth_error_map, (nth_error_nth' (seq 0 k) 0%nat) by (rewrite seq_length; lia).
      rewrite seq_nth by lia. cbn [option_map]. do 2 f_equal. lia.
  - split; [reflexivity|]. intros j Hj. specialize (H (Z.to_nat j) ltac:(lia)). rewrite Z2Nat.id in H by lia. exact H.
Qed.
Print Assumptions C63_bessel.
(** A zero inside the series does not end it. *)
Example C63_example :
  let jv := fun i => nth (Z.to_nat i) [9; 0; 5; 0; 0; 7] 0 in
  bessel_series jv (fun v => 1 <? v) 10 = Ok [9; 0; 5] /\ bessel_series jv (fun v => 1 <? v) 3 = Err ValueError.
Proof. split; reflexivity. Qed.
(** A series of fewer than three terms is accepted by the solver but the
    propagation reads its second and third entries. *)
Theorem C63_short_refuted : exists (jv : Z -> GQ) (gt : GQ -> bool) (bes : list GQ),
  bessel_series jv gt 10 = Ok bes /\ length bes = 2%nat /\
  calc_psi_t qconj qi qinv q_is0 qreal q_sqrt q_bad 1 jv gt 10 spmq [sZ 2; sZ 1] [1] 3 9 = Err IndexError.
Proof. exists (fun i => if i <? 2 then sZ 1 else s0), (fun v => negb (q_is0 v)). eexists. split; [vm_compute; reflexivity|]. split; vm_compute; reflexivity. Qed.
Print Assumptions C63_short_refuted.
