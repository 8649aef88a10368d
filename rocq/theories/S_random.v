(** What a random state is. *)
From Coq Require Import Reals.
From Verif Require Import Prelude Cx.
Local Open Scope R_scope.

Definition weight (z : Cplx) : R := fst z ^ 2 + snd z ^ 2.
Fixpoint total_weight (l : list Cplx) : R := match l with [] => 0 | z :: r => weight z + total_weight r end.
(** the variable of the exponential distribution belonging to a number between
    0 and 1: it is larger than t for a share exp(-t) of them *)
Definition exponential (x f : R) : Prop := 0 <= x /\ f = 1 - exp (- x).
