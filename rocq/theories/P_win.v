(** Property C43: the windows fall from 1 at the start of the correlation
    function to their final value at its end. *)
From Coq Require Import Reals Lra.
From Verif Require Import Prelude M_ana M_resp.
Local Open Scope R_scope.

Lemma frac_range i n : (0 <= i <= n)%Z -> (0 < n)%Z -> 0 <= IZR i / IZR n <= 1.
Proof.
  intros [H1 H2] Hn. apply IZR_le in H1, H2. apply IZR_lt in Hn. split; [apply Rmult_le_pos; [lra|left; apply Rinv_0_lt_compat; lra]|].
  apply (Rmult_le_reg_r (IZR n)); [lra|]. unfold Rdiv. rewrite Rmult_assoc, Rinv_l by lra. lra.
Qed.
Lemma frac_lt i j n : (i < j)%Z -> (0 < n)%Z -> IZR i / IZR n < IZR j / IZR n.
Proof. intros H Hn. apply IZR_lt in H, Hn. apply Rmult_lt_compat_r; [apply Rinv_0_lt_compat; lra|lra]. Qed.
Lemma frac_sq i j n : (0 <= i < j)%Z -> (0 < n)%Z -> (IZR i / IZR n) ^ 2 < (IZR j / IZR n) ^ 2.
Proof.
  intros H Hn. pose proof (frac_lt i j n ltac:(lia) Hn). assert (0 <= IZR i / IZR n).
  { apply IZR_lt in Hn. destruct H as [H _]. apply IZR_le in H. apply Rmult_le_pos; [lra|left; apply Rinv_0_lt_compat; lra]. }
  apply Rmult_lt_compat_r with (r := IZR j / IZR n) in H0 as H2; [|lra]. apply Rmult_le_compat_l with (r := IZR i / IZR n) in H1 as H3; [|lra]. cbn [pow]. nra.
Qed.

Theorem C43_window_shape : forall n : Z, (0 < n)%Z ->
  (** the Hanning window: half a period of a cosine, symmetric about the middle *)
  (window_hanning 0 n = 1 /\ window_hanning n n = 0 /\
   (forall i, window_hanning i n + window_hanning (n - i) n = 1) /\
   (forall i j, (0 <= i < j)%Z -> (j <= n)%Z -> window_hanning j n < window_hanning i n)) /\
  (** the exponential windows *)
  (window_exp 0 n = 1 /\ window_exp n n = exp (-2) /\
   (forall i j, (0 <= i < j)%Z -> window_exp j n < window_exp i n)) /\
  (window_exp_ten 0 n = 1 /\ window_exp_ten n n = / 100 /\
   (forall i j, (0 <= i < j)%Z -> window_exp_ten j n < window_exp_ten i n)).
Proof.
  intros n Hn. assert (Hn' : IZR n <> 0) by (apply not_0_IZR; lia).
  unfold window_hanning, window_exp, window_exp_ten. split; [|split].
  - split; [|split; [|split]].
    + replace (PI * 0 / IZR n) with 0 by (field; exact Hn'). rewrite cos_0. lra.
    + replace (PI * IZR n / IZR n) with PI by (field; exact Hn'). rewrite cos_PI. lra.
    + intros i. rewrite minus_IZR. replace (PI * (IZR n - IZR i) / IZR n) with (PI - PI * IZR i / IZR n) by (field; exact Hn').
      rewrite cos_minus, cos_PI, sin_PI. lra.
    + intros i j H Hj. pose proof (frac_range i n ltac:(lia) Hn). pose proof (frac_range j n ltac:(lia) Hn). pose proof (frac_lt i j n ltac:(lia) Hn).
      pose proof PI_RGT_0. assert (cos (PI * IZR j / IZR n) < cos (PI * IZR i / IZR n)); [|lra].
      replace (PI * IZR j / IZR n) with (PI * (IZR j / IZR n)) by (field; exact Hn'). replace (PI * IZR i / IZR n) with (PI * (IZR i / IZR n)) by (field; exact Hn').
      apply cos_decreasing_1; nra.
  - split; [|split].
    + replace (-2 * (0 / IZR n) ^ 2) with 0 by (field; exact Hn'). apply exp_0.
    + f_equal. field. exact Hn'.
    + intros i j H. apply exp_increasing. pose proof (frac_sq i j n H Hn). lra.
  - split; [|split].
    + replace (-2 * (1 * 0 / IZR n) ^ 2) with 0 by (field; exact Hn'). apply Rpower_O. lra.
    + replace (-2 * (1 * IZR n / IZR n) ^ 2) with (- INR 2) by (cbn [INR]; field; exact Hn'). rewrite Rpower_Ropp, Rpower_pow by lra. f_equal. ring.
    + intros i j H. apply Rpower_lt; [lra|]. pose proof (frac_sq i j n H Hn). rewrite !Rmult_1_l. lra.
Qed.
Print Assumptions C43_window_shape.

Example C43_window_example : window_hanning 1 2 = 1 / 2 /\ window_hanning 3 4 < window_hanning 1 4.
Proof.
  destruct (C43_window_shape 2 ltac:(lia)) as ((_ & _ & H & _) & _). specialize (H 1%Z). cbn in H. split; [lra|].
  destruct (C43_window_shape 4 ltac:(lia)) as ((_ & _ & _ & H') & _). apply H'; lia.
Qed.
