(** Specification of the fit of parameters to bands.  No model definitions. *)
From Coq Require Import Reals.
From Verif Require Import Prelude.
Local Open Scope R_scope.

Definition total (l : list R) : R := fold_right Rplus 0 l.
(** Relative weight of a band: absolute value over the sum of absolute values. *)
Definition share (l : list R) (i : nat) : R := Rabs (nth i l 0) / total (map Rabs l).
(** Bands as functions of k-point and number of the band, and the table of them *)
Definition table (nk nb : nat) (b : nat -> nat -> R) : list (list R) := map (fun k => map (b k) (seq 0 nb)) (seq 0 nk).
(** Weighted differences, k-point by k-point. *)
Definition differences (nk nb : nat) (w : nat -> R) (ref fit : nat -> nat -> R) : list R :=
  flat_map (fun k => map (fun i => (ref k i - fit k i) * w i) (seq 0 nb)) (seq 0 nk).
(** Sum over k-points and bands of squared weight times squared difference. *)
Definition misfit (nk nb : nat) (w : nat -> R) (ref fit : nat -> nat -> R) : R :=
  total (map (fun k => total (map (fun i => w i ^ 2 * (ref k i - fit k i) ^ 2) (seq 0 nb))) (seq 0 nk)).
Definition squares (l : list R) : R := total (map (fun x => x ^ 2) l).
(** What is asked of the minimiser: parameters returned with one of the four good
    states have the least sum of squares among those near them. *)
Definition least_squares {X : Type} (near : X -> X -> Prop) (leastsq : (X -> res (list (option R))) -> X -> res (X * Z)) : Prop :=
  forall f p0 p st, leastsq f p0 = Ok (p, st) -> In st [1; 2; 3; 4]%Z ->
  forall q a b, near p q -> f p = Ok (map Some a) -> f q = Ok (map Some b) -> squares a <= squares b.
