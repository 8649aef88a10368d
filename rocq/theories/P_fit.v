(** Fitting of parameters to bands (C87). *)
From Coq Require Import Reals Lra.
From Verif Require Import Prelude M_super M_ana M_fit S_fit.
Local Open Scope R_scope.

Lemma scale_map (w : nat -> R) (g : nat -> R) : forall (l : list nat) (i a : nat), (forall n, nth_error l n = nth_error (seq a (length l)) n) ->
  scale_at i (Some (w (a + i)%nat)) (map (fun j => Some (g j)) l) = map (fun j => Some (if Nat.eqb j (a + i) then g j * w j else g j)) l.
Proof.
  induction l as [|x l IH]; intros i a H; [destruct i; reflexivity|]. pose proof (H 0%nat) as H0. cbn in H0. injection H0 as ->. destruct i as [|i]; cbn [scale_at map nan2].
  - rewrite Nat.add_0_r, Nat.eqb_refl. f_equal. apply map_ext_in. intros j Hj. destruct (Nat.eqb_spec j a) as [->|]; [|reflexivity]. exfalso.
    apply In_nth_error in Hj. destruct Hj as (n & Hn). pose proof (H (S n)) as Hs. cbn [nth_error length seq] in Hs. rewrite Hn in Hs. symmetry in Hs. apply nth_error_In, in_seq in Hs. lia.
  - f_equal.
    + destruct (Nat.eqb_spec a (a + S i)); [lia|reflexivity].
    + replace (a + S i)%nat with (S a + i)%nat by lia. apply IH. intros n. exact (H (S n)).
Qed.
Lemma scale_loop nb (w g : nat -> R) : forall m a, (a + m <= nb)%nat ->
  fold_left (fun row iw => scale_at (fst iw) (snd iw) row) (map (fun i => (i, Some (w i))) (seq a m)) (map (fun j => Some (if (j <? a)%nat then g j * w j else g j)) (seq 0 nb)) =
  map (fun j => Some (if (j <? a + m)%nat then g j * w j else g j)) (seq 0 nb).
Proof.
  induction m as [|m IH]; intros a Ha; cbn [seq map fold_left]; [rewrite Nat.add_0_r; reflexivity|]. cbn [fst snd].
  pose proof (scale_map w (fun j => if (j <? a)%nat then g j * w j else g j) (seq 0 nb) a 0) as E. cbn [Nat.add] in E. rewrite E by (rewrite seq_length; reflexivity).
  replace (a + S m)%nat with (S a + m)%nat by lia. rewrite <- IH by lia. f_equal. apply map_ext. intros j.
  destruct (Nat.eqb_spec j a), (Nat.ltb_spec j a), (Nat.ltb_spec j (S a)); try lia; reflexivity.
Qed.
Lemma fold_rows (L : list (nat * option R)) : forall d, fold_left (fun d iw => map (scale_at (fst iw) (snd iw)) d) L d = map (fun row => fold_left (fun row iw => scale_at (fst iw) (snd iw) row) L row) d.
Proof. induction L as [|x L IH]; intros d; cbn [fold_left]; [symmetry; apply map_id|]. rewrite IH, map_map. reflexivity. Qed.
Lemma combine_map {A B C} (f : A -> B) (g : A -> C) l : combine (map f l) (map g l) = map (fun x => (f x, g x)) l.
Proof. induction l; cbn; congruence. Qed.
Lemma sub_table nk nb r f : bands_sub (table nk nb r) (table nk nb f) = Ok (map (fun k => map (fun i => Some (r k i - f k i)) (seq 0 nb)) (seq 0 nk)).
Proof.
  unfold bands_sub, table. rewrite !map_length, Nat.eqb_refl, combine_map. cbn [andb].
  replace (forallb _ _) with true.
  - f_equal. rewrite map_map. apply map_ext. intros k. cbn [fst snd]. rewrite combine_map, map_map. reflexivity.
  - symmetry. apply forallb_forall. intros [a b] H. apply in_map_iff in H. destruct H as (k & E & _). injection E as <- <-. cbn [fst snd]. rewrite !map_length. apply Nat.eqb_refl.
Qed.
Lemma estimate_table {X} (bf : X -> res (list (list R))) nk nb r f w p : bf p = Ok (table nk nb f) ->
  estimate_error bf (table nk nb r) (map (fun i => Some (w i)) (seq 0 nb)) p = Ok (map Some (differences nk nb w r f)).
Proof.
  intros H. unfold estimate_error. rewrite H. cbn [bind]. rewrite sub_table. cbn [bind]. do 1 f_equal. rewrite map_length, seq_length.
  rewrite <- (map_id (seq 0 nb)) at 1. rewrite combine_map, fold_rows, map_map.
  unfold differences. rewrite flat_map_concat_map, concat_map, map_map. do 1 f_equal. apply map_ext. intros k.
  pose proof (scale_loop nb w (fun i => r k i - f k i) nb 0 ltac:(lia)) as E. cbn [Nat.add] in E.
  transitivity (map (fun j => Some (if (j <? nb)%nat then (r k j - f k j) * w j else (r k j - f k j))) (seq 0 nb)).
  - rewrite <- E. reflexivity.
  - rewrite map_map. apply map_ext_in. intros j Hj. apply in_seq in Hj. destruct (Nat.ltb_spec j nb); [reflexivity|lia].
Qed.
Lemma seq_nth {A B} (f : A -> B) (l : list A) d : map f l = map (fun i => f (nth i l d)) (seq 0 (length l)).
Proof. induction l as [|x l IH]; [reflexivity|]. cbn [length seq map nth]. f_equal. rewrite IH, <- seq_shift, map_map. reflexivity. Qed.
Lemma repeat_seq {A} (x : A) n : forall a, repeat x n = map (fun _ => x) (seq a n).
Proof. induction n; intros a; cbn; [reflexivity|]. f_equal. apply IHn. Qed.

(** Weight of each band for the argument. *)
Definition band_weight (w : weights_arg) (i : nat) : R := match w with WFloats l => share l i | _ => 1 end.
Definition usable (nb : nat) (w : weights_arg) : Prop :=
  match w with WNone => True | WInts _ => False | WFloats l => length l = nb /\ total (map Rabs l) <> 0 end.
Lemma init_ok nb w : usable nb w -> init_weights nb w = Ok (map (fun i => Some (band_weight w i)) (seq 0 nb)).
Proof.
  destruct w as [|l|l]; cbn [usable init_weights band_weight]; intros H; [f_equal; apply repeat_seq|destruct H|]. destruct H as [H1 H2]. rewrite H1, Nat.eqb_refl. cbn [negb]. f_equal. rewrite map_map.
  unfold is_zero. change (fold_right Rplus 0 (map Rabs l)) with (total (map Rabs l)). destruct (Req_EM_T (total (map Rabs l)) 0) as [E|E]; [contradiction|].
  rewrite (seq_nth _ l 0), H1. reflexivity.
Qed.

(** ** C87 *)
(** The errors are the weighted differences, k-point by k-point, and their sum of
    squares weighs the squared differences by the squares of the weights. *)
Lemma total_app a b : total (a ++ b) = total a + total b.
Proof. unfold total. induction a as [|x a IH]; cbn [app fold_right]; [lra|]. rewrite IH. lra. Qed.
Lemma total_ext {A} (f g : A -> R) l : (forall x, In x l -> f x = g x) -> total (map f l) = total (map g l).
Proof. intros H. f_equal. apply map_ext_in, H. Qed.
Lemma squares_differences nk nb w r f : squares (differences nk nb w r f) = misfit nk nb w r f.
Proof.
  unfold squares, differences, misfit. induction (seq 0 nk) as [|k l IH]; [reflexivity|]. cbn [flat_map map]. rewrite map_app, total_app, IH. change (total (?x :: ?y)) with (x + total y). f_equal.
  rewrite map_map. apply total_ext. intros i _. ring.
Qed.
Theorem C87_errors : forall (X : Type) (bands_fit : X -> res (list (list R))) (nk nb : nat) (ref fit : nat -> nat -> R) (w : weights_arg) (p : X),
  usable nb w -> bands_fit p = Ok (table nk nb fit) ->
  exists ws, init_weights nb w = Ok ws /\ length ws = nb /\
  estimate_error bands_fit (table nk nb ref) ws p = Ok (map Some (differences nk nb (band_weight w) ref fit)) /\
  squares (differences nk nb (band_weight w) ref fit) = misfit nk nb (band_weight w) ref fit.
Proof.
  intros X bf nk nb r f w p Hw Hp. exists (map (fun i => Some (band_weight w i)) (seq 0 nb)). split; [apply init_ok, Hw|]. split; [rewrite map_length; apply seq_length|].
  split; [apply estimate_table, Hp|apply squares_differences].
Qed.
Print Assumptions C87_errors.

Lemma total_pos l : (forall x, In x l -> 0 <= x) -> 0 <= total l.
Proof. unfold total. induction l as [|x l IH]; intros H; cbn [fold_right]; [lra|]. pose proof (H x (or_introl eq_refl)). specialize (IH (fun y Hy => H y (or_intror Hy))). lra. Qed.
Lemma total_zero l : (forall x, In x l -> 0 <= x) -> total l = 0 -> forall x, In x l -> x = 0.
Proof.
  unfold total. induction l as [|y l IH]; intros H E x Hx; [destruct Hx|]. cbn [fold_right] in E. pose proof (H y (or_introl eq_refl)). pose proof (total_pos l (fun z Hz => H z (or_intror Hz))) as P. unfold total in P.
  destruct Hx as [<-|Hx]; [lra|]. apply (IH (fun z Hz => H z (or_intror Hz))); [lra|exact Hx].
Qed.
Lemma misfit_pos nk nb w r f : 0 <= misfit nk nb w r f.
Proof. apply total_pos. intros x Hx. apply in_map_iff in Hx. destruct Hx as (k & <- & _). apply total_pos. intros y Hy. apply in_map_iff in Hy. destruct Hy as (i & <- & _). apply Rmult_le_pos; apply pow2_ge_0. Qed.
Lemma misfit_zero nk nb w r f : misfit nk nb w r f = 0 <-> forall k i, (k < nk)%nat -> (i < nb)%nat -> w i <> 0 -> f k i = r k i.
Proof.
  split.
  - intros H k i Hk Hi Hw. pose proof (fun H' => total_zero _ H' H (total (map (fun i => w i ^ 2 * (r k i - f k i) ^ 2) (seq 0 nb)))) as A.
    assert (B : total (map (fun i => w i ^ 2 * (r k i - f k i) ^ 2) (seq 0 nb)) = 0).
    { apply A; [|apply (in_map (fun k => total (map (fun i => w i ^ 2 * (r k i - f k i) ^ 2) (seq 0 nb)))), in_seq; lia].
      intros x Hx. apply in_map_iff in Hx. destruct Hx as (k' & <- & _). apply total_pos. intros y Hy. apply in_map_iff in Hy. destruct Hy as (i' & <- & _). apply Rmult_le_pos; apply pow2_ge_0. }
    pose proof (fun H' => total_zero _ H' B (w i ^ 2 * (r k i - f k i) ^ 2)) as C.
    assert (D : w i ^ 2 * (r k i - f k i) ^ 2 = 0).
    { apply C; [|apply (in_map (fun i => w i ^ 2 * (r k i - f k i) ^ 2)), in_seq; lia]. intros y Hy. apply in_map_iff in Hy. destruct Hy as (i' & <- & _). apply Rmult_le_pos; apply pow2_ge_0. }
    apply Rmult_integral in D. destruct D as [D|D]; [exfalso; exact (pow_nonzero _ 2 Hw D)|].
    destruct (Req_dec (r k i - f k i) 0) as [E|E]; [lra|]. exfalso. exact (pow_nonzero _ 2 E D).
  - intros H. unfold misfit. transitivity (total (map (fun _ : nat => 0) (seq 0 nk))).
    + apply total_ext. intros k Hk. apply in_seq in Hk. transitivity (total (map (fun _ : nat => 0) (seq 0 nb))).
      * apply total_ext. intros i Hi. apply in_seq in Hi. destruct (Req_dec (w i) 0) as [E|E]; [rewrite E; ring|]. rewrite H by (lia || exact E). ring.
      * generalize (seq 0 nb). intros l. unfold total. induction l; cbn [map fold_right]; lra.
    + generalize (seq 0 nk). intros l. unfold total. induction l; cbn [map fold_right]; lra.
Qed.
(** The error vanishes iff the bands agree wherever the weight is not zero. *)
Theorem C87_zero : forall (nk nb : nat) (ref fit : nat -> nat -> R) (w : weights_arg),
  usable nb w ->
  0 <= misfit nk nb (band_weight w) ref fit /\
  (misfit nk nb (band_weight w) ref fit = 0 <->
   forall k i, (k < nk)%nat -> (i < nb)%nat -> (match w with WFloats l => nth i l 0 <> 0 | _ => True end) -> fit k i = ref k i).
Proof.
  intros nk nb r f w Hw. split; [apply misfit_pos|]. rewrite misfit_zero. split; intros H k i Hk Hi Hn; apply H; try assumption.
  - destruct w as [|l|l]; cbn [band_weight]; [lra|lra|]. destruct Hw as [_ Hw]. unfold share, Rdiv. apply Rmult_integral_contrapositive_currified; [apply Rabs_no_R0, Hn|apply Rinv_neq_0_compat, Hw].
  - destruct w as [|l|l]; cbn [band_weight] in Hn; [exact I|exact I|]. intros E. apply Hn. unfold share. rewrite E, Rabs_R0. unfold Rdiv. apply Rmult_0_l.
Qed.
Print Assumptions C87_zero.

(** Only the ratios of the absolute values of the weights matter; without weights
    the errors are those of equal weights times the number of bands. *)
Lemma total_scale c l : total (map (fun x => c * x) l) = c * total l.
Proof. unfold total. induction l; cbn [map fold_right]; lra. Qed.
Theorem C87_relative :
  (forall (nb : nat) (l : list R) (c : R), c <> 0 -> init_weights nb (WFloats (map (fun x => c * x) l)) = init_weights nb (WFloats l)) /\
  (forall (nb : nat) (l l' : list R), map Rabs l = map Rabs l' -> init_weights nb (WFloats l) = init_weights nb (WFloats l')) /\
  (forall (nb : nat) (c : R) (nk : nat) (ref fit : nat -> nat -> R), c <> 0 -> (1 <= nb)%nat ->
     usable nb (WFloats (repeat c nb)) /\
     differences nk nb (band_weight WNone) ref fit = map (fun x => INR nb * x) (differences nk nb (band_weight (WFloats (repeat c nb))) ref fit)).
Proof.
  split; [|split].
  - intros nb l c Hc. cbn [init_weights]. rewrite map_length. destruct (length l =? nb)%nat; cbn [negb]; [|reflexivity]. f_equal.
    assert (E : map Rabs (map (fun x => c * x) l) = map (fun x => Rabs c * x) (map Rabs l)) by (rewrite !map_map; apply map_ext; intros x; apply Rabs_mult). rewrite E.
    change (fold_right Rplus 0) with total. rewrite total_scale, map_map. pose proof (Rabs_no_R0 c Hc) as Hc'. apply map_ext. intros x. unfold is_zero.
    destruct (Req_EM_T (Rabs c * total (map Rabs l)) 0) as [A|A]; destruct (Req_EM_T (total (map Rabs l)) 0) as [B|B]; try reflexivity.
    + exfalso. apply Rmult_integral in A. destruct A; contradiction.
    + exfalso. apply A. rewrite B. ring.
    + f_equal. field. split; assumption.
  - intros nb l l' E. cbn [init_weights]. pose proof (f_equal (@length R) E) as L. rewrite !map_length in L. rewrite L, E. reflexivity.
  - intros nb c nk r f Hc Hb.
    assert (T : total (map Rabs (repeat c nb)) = INR nb * Rabs c).
    { clear Hb. unfold total. induction nb as [|n IH]; [cbn; ring|]. rewrite S_INR. cbn [repeat map fold_right]. rewrite IH. ring. }
    assert (Hn : INR nb <> 0) by (apply not_0_INR; lia). pose proof (Rabs_no_R0 c Hc) as Hc'.
    split; [split; [apply repeat_length|rewrite T; apply Rmult_integral_contrapositive_currified; assumption]|].
    unfold differences. rewrite !flat_map_concat_map, concat_map, map_map. f_equal. apply map_ext. intros k. rewrite map_map. apply map_ext_in. intros i Hi. apply in_seq in Hi. cbn [band_weight]. unfold share. rewrite T.
    replace (nth i (repeat c nb) 0) with c; [field; split; assumption|]. symmetry. apply (repeat_spec nb c). apply nth_In. rewrite repeat_length. lia.
Qed.
Print Assumptions C87_relative.

(** Errors: weights of another length are rejected and a fit that did not
    converge raises RuntimeError. *)
Theorem C87_rejects : forall (X : Type) (bands_fit : X -> res (list (list R))) leastsq (ref : list (list R)) (nb : nat) (p0 : X),
  (forall l, length l <> nb -> fit_bands bands_fit leastsq ref nb (WFloats l) p0 = Err ValueError) /\
  (forall l, length l <> nb -> fit_bands bands_fit leastsq ref nb (WInts l) p0 = Err ValueError) /\
  (forall ws p st, leastsq (estimate_error bands_fit ref ws) p0 = Ok (p, st) ->
     fit bands_fit leastsq ref ws p0 = if (1 <=? st)%Z && (st <=? 4)%Z then Ok p else Err RuntimeError).
Proof.
  intros X bf ls r nb p0. split; [|split].
  - intros l H. unfold fit_bands. cbn [init_weights]. destruct (Nat.eqb_spec (length l) nb); [contradiction|reflexivity].
  - intros l H. unfold fit_bands. cbn [init_weights]. destruct (Nat.eqb_spec (length l) nb); [contradiction|reflexivity].
  - intros ws p st H. unfold fit. rewrite H. cbn [bind existsb]. destruct (Z.leb_spec 1 st), (Z.leb_spec st 4); cbn [andb];
      destruct (Z.eqb_spec st 1), (Z.eqb_spec st 2), (Z.eqb_spec st 3), (Z.eqb_spec st 4); cbn [orb negb]; try reflexivity; lia.
Qed.
Print Assumptions C87_rejects.

(** A fit returns parameters of least weighted error among those near them; if
    all parameters count as near and some reproduce the reference, then so do
    those of the fit, on every band of non-zero weight. *)
Theorem C87_fit : forall (X : Type) (bands_fit : X -> res (list (list R))) (near : X -> X -> Prop) leastsq (nk nb : nat) (ref : nat -> nat -> R) (fit_of : X -> nat -> nat -> R) (w : weights_arg) (p0 p : X),
  least_squares near leastsq -> usable nb w -> (forall q, bands_fit q = Ok (table nk nb (fit_of q))) ->
  fit_bands bands_fit leastsq (table nk nb ref) nb w p0 = Ok p ->
  (forall q, near p q -> misfit nk nb (band_weight w) ref (fit_of p) <= misfit nk nb (band_weight w) ref (fit_of q)) /\
  (forall q, near p q -> (forall k i, (k < nk)%nat -> (i < nb)%nat -> fit_of q k i = ref k i) ->
     forall k i, (k < nk)%nat -> (i < nb)%nat -> (match w with WFloats l => nth i l 0 <> 0 | _ => True end) -> fit_of p k i = ref k i).
Proof.
  intros X bf near ls nk nb r fo w p0 p Hls Hw Hf H. unfold fit_bands in H. rewrite (init_ok nb w Hw) in H. cbn [bind] in H. unfold fit in H.
  set (ws := map _ _) in H. destruct (ls (estimate_error bf (table nk nb r) ws) p0) as [[p' st]|] eqn:E; [|discriminate]. cbn [bind] in H.
  destruct (existsb (Z.eqb st) [1; 2; 3; 4]%Z) eqn:Es; cbn [negb] in H; [|discriminate]. injection H as ->.
  assert (Hst : In st [1; 2; 3; 4]%Z). { apply existsb_exists in Es. destruct Es as (x & Hx & Hx'). apply Z.eqb_eq in Hx'. subst. exact Hx. }
  assert (Hmin : forall q, near p q -> misfit nk nb (band_weight w) r (fo p) <= misfit nk nb (band_weight w) r (fo q)).
  { intros q Hq. rewrite <- !squares_differences. apply (Hls _ _ _ _ E Hst q _ _ Hq); apply estimate_table, Hf. }
  split; [exact Hmin|]. intros q Hq Hex k i Hk Hi Hn. specialize (Hmin q Hq).
  assert (Z0 : misfit nk nb (band_weight w) r (fo q) = 0) by (apply misfit_zero; intros; apply Hex; assumption).
  pose proof (misfit_pos nk nb (band_weight w) r (fo p)). destruct (C87_zero nk nb r (fo p) w Hw) as (_ & Hz). apply Hz; [lra|assumption..].
Qed.
Print Assumptions C87_fit.

(** Findings.  (1) Integer weights of the right length raise TypeError.  (2)
    Weights that are all zero are accepted, and every error is not-a-number. *)
Theorem C87_integers_refuted : forall (nb : nat) (l : list Z), length l = nb -> init_weights nb (WInts l) = Err TypeError.
Proof. intros nb l H. cbn [init_weights]. rewrite H, Nat.eqb_refl. reflexivity. Qed.
Print Assumptions C87_integers_refuted.
Theorem C87_zeros_refuted : forall (X : Type) (bands_fit : X -> res (list (list R))) (nk nb : nat) (ref fit : nat -> nat -> R) (p : X),
  bands_fit p = Ok (table nk nb fit) ->
  exists ws, init_weights nb (WFloats (repeat 0 nb)) = Ok ws /\ estimate_error bands_fit (table nk nb ref) ws p = Ok (repeat None (nk * nb)).
Proof.
  intros X bf nk nb r f p Hp. exists (repeat None nb). split.
  - cbn [init_weights]. rewrite repeat_length, Nat.eqb_refl. cbn [negb]. f_equal.
    assert (T : fold_right Rplus 0 (map Rabs (repeat 0 nb)) = 0) by (clear; induction nb as [|n IH]; [reflexivity|]; cbn [repeat map fold_right]; rewrite IH, Rabs_R0; ring).
    rewrite T. unfold is_zero. destruct (Req_EM_T 0 0); [|congruence]. clear. induction nb; cbn; congruence.
  - unfold estimate_error. rewrite Hp. cbn [bind]. rewrite sub_table. cbn [bind]. f_equal. rewrite repeat_length, fold_rows, map_map.
    assert (G : forall (m a : nat) (row : list (option R)), (a + m = length row)%nat -> fold_left (fun row iw => scale_at (fst iw) (snd iw) row) (combine (seq a m) (repeat None m)) row = firstn a row ++ repeat None m).
    { induction m as [|m IH]; intros a row Hl; cbn [seq repeat combine fold_left]; [rewrite app_nil_r, firstn_all2 by lia; reflexivity|]. cbn [fst snd].
      assert (SC : forall (row : list (option R)) a, (a < length row)%nat -> scale_at a None row = firstn a row ++ None :: skipn (S a) row).
      { clear. induction row as [|x row IH]; intros [|a] H; cbn [length] in H; try lia; cbn [scale_at firstn skipn app]; [destruct x; reflexivity|]. f_equal. apply IH. lia. }
      rewrite SC by lia. rewrite IH.
      - rewrite firstn_app, firstn_firstn, firstn_length. replace (Nat.min (S a) a) with a by lia. replace (S a - Nat.min a (length row))%nat with 1%nat by lia. cbn [firstn]. rewrite <- app_assoc. reflexivity.
      - rewrite app_length, firstn_length. cbn [length]. rewrite skipn_length. lia. }
    transitivity (concat (map (fun _ : nat => repeat (@None R) nb) (seq 0 nk))).
    + f_equal. apply map_ext. intros k. rewrite G; [reflexivity|rewrite map_length, seq_length; reflexivity].
    + clear. generalize 0%nat. induction nk as [|n IH]; intros a; cbn [seq map concat Nat.mul]; [reflexivity|]. rewrite IH, repeat_app. reflexivity.
Qed.
Print Assumptions C87_zeros_refuted.

(** Two k-points and two bands, weights 3 and -1. *)
Example C87_example : let ref := fun k i : nat => INR (k + 2 * i) in let fit := fun k i : nat => INR (k + i) in
  exists ws, init_weights 2 (WFloats [3; -1]) = Ok ws /\
  estimate_error (fun _ : unit => Ok (table 2 2 fit)) (table 2 2 ref) ws tt = Ok [Some 0; Some (1 / 4); Some 0; Some (1 / 4)] /\
  misfit 2 2 (band_weight (WFloats [3; -1])) ref fit = 1 / 8.
Proof.
  cbv zeta.
  assert (A1 : Rabs 3 = 3) by (apply Rabs_right; lra). assert (A2 : Rabs (-1) = 1) by (unfold Rabs; destruct (Rcase_abs (-1)); lra).
  assert (U : usable 2 (WFloats [3; -1])) by (split; [reflexivity|]; unfold total; cbn [map fold_right]; rewrite A1, A2; lra).
  destruct (C87_errors unit (fun _ => Ok (table 2 2 (fun k i => INR (k + i)))) 2 2 (fun k i => INR (k + 2 * i)) (fun k i => INR (k + i)) _ tt U eq_refl) as (ws & H1 & _ & H2 & H3).
  exists ws. split; [exact H1|]. assert (W0 : share [3; -1] 0 = 3 / 4 /\ share [3; -1] 1 = 1 / 4) by (unfold share, total; cbn [map fold_right nth]; rewrite A1, A2; split; field). destruct W0 as [W0 W1].
  split.
  - rewrite H2. unfold differences. cbn [seq flat_map map app Nat.add Nat.mul INR band_weight]. rewrite W0, W1. do 2 f_equal; [f_equal; lra|]. f_equal; [f_equal; lra|]. f_equal; [f_equal; lra|]. f_equal. f_equal. lra.
  - unfold misfit, total. cbn [seq map fold_right Nat.add Nat.mul INR band_weight]. rewrite W0, W1. lra.
Qed.
