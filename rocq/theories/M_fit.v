(** Model of ParamFit of tbplas/builder/advanced.py.  A number of an array is
    [Some x], not-a-number is [None]; values are exact.  scipy's leastsq and the
    two abstract methods are parameters. *)
From Coq Require Import Reals.
From Verif Require Import Prelude M_super M_ana.
Local Open Scope Z_scope.

(** The weights argument: None, an array of integers or an array of floats. *)
Inductive weights_arg := WNone | WInts (l : list Z) | WFloats (l : list R).

(** advanced.py:1452-1460.  numpy.abs keeps the type of the array, and an
    in-place division of an array of integers raises TypeError.  0/0 is nan. *)
Definition init_weights (num_bands : nat) (w : weights_arg) : res (list (option R)) :=
  match w with
  | WNone => Ok (repeat (Some 1%R) num_bands)
  | WInts l => if negb (List.length l =? num_bands)%nat then Err ValueError else Err TypeError
  | WFloats l => if negb (List.length l =? num_bands)%nat then Err ValueError else
      let a := map Rabs l in
      let s := fold_right Rplus 0%R a in
      Ok (map (fun x => if is_zero s then None else Some (x / s)%R) a)
  end.

Definition nan2 (f : R -> R -> R) (x y : option R) : option R :=
  match x, y with Some a, Some b => Some (f a b) | _, _ => None end.
(** bands_diff[:, i] *= w on one row *)
Fixpoint scale_at (i : nat) (w : option R) (row : list (option R)) : list (option R) :=
  match row, i with
  | [], _ => []
  | x :: r, O => nan2 Rmult x w :: r
  | x :: r, S i => x :: scale_at i w r
  end.
(** _bands_ref - bands_fit; arrays of different shape raise ValueError (numpy
    accepts dimensions of size 1 in place of others, which is left out). *)
Definition bands_sub (a b : list (list R)) : res (list (list (option R))) :=
  if (List.length a =? List.length b)%nat && forallb (fun p => (List.length (fst p) =? List.length (snd p))%nat) (combine a b)
  then Ok (map (fun p => map (fun q => Some (fst q - snd q)%R) (combine (fst p) (snd p))) (combine a b))
  else Err ValueError.

Section Fit.
  Context {X : Type} (bands_fit : X -> res (list (list R))).
  (** 1482-1494 estimate_error: the columns are scaled one after another. *)
  Definition estimate_error (ref : list (list R)) (ws : list (option R)) (params : X) : res (list (option R)) :=
    bind (bands_fit params) (fun fit => bind (bands_sub ref fit) (fun diff =>
    let diff := fold_left (fun d iw => map (scale_at (fst iw) (snd iw)) d) (combine (seq 0 (List.length ws)) ws) diff in
    Ok (concat diff))).
  (** 1496-1510 fit; leastsq f p gives parameters and status. *)
  Definition fit (leastsq : (X -> res (list (option R))) -> X -> res (X * Z)) (ref : list (list R)) (ws : list (option R)) (params0 : X) : res X :=
    bind (leastsq (estimate_error ref ws) params0) (fun r => let '(params, status) := r in
    if negb (existsb (Z.eqb status) [1; 2; 3; 4]) then Err RuntimeError else Ok params).
  (** 1444-1460 __init__, then fit; num_bands is the length of a row. *)
  Definition fit_bands (leastsq : (X -> res (list (option R))) -> X -> res (X * Z)) (ref : list (list R)) (num_bands : nat) (w : weights_arg) (params0 : X) : res X :=
    bind (init_weights num_bands w) (fun ws => fit leastsq ref ws params0).
End Fit.
