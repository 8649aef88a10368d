(** Shared vocabulary of the model: results with exceptions, insertion-ordered
    association lists standing for Python dicts, Python list indexing. *)
From Coq Require Export List ZArith Lia Bool Arith.
From Coq Require Export ZifyBool ZifyNat.
Export ListNotations.
Open Scope Z_scope.

(** Exceptions of tbplas/builder/exceptions.py (and the built-in ones used by
    the modelled functions).  Payloads (the offending index) are dropped. *)
Inductive exn :=
| LockError | OrbPositionLenError | CellIndexLenError | PCOrbIndexError
| PCHopDiagonalError | PCHopNotFoundError | PCOrbEmptyError | PCHopEmptyError
| SCDimSizeError | SCDimLenError | PBCLenError | IDPCIndexError | IDPCLenError
| IDPCTypeError | IDPCVacError | IDSCIndexError | SCOrbIndexError
| SCHopDiagonalError | InterHopVoidError | SampleVoidError | SampleCompError
| SampleClosureError | CoordLenError | LatVecError
| ValueError | TypeError | KeyError | IndexError | RuntimeError
| AssertionError | ParameterError | AttributeError | ZeroDivisionError
| FileNotFoundError | UnboundLocalError | NotImplementedError | StopIteration
| OutOfFuel.

Inductive res (A : Type) :=
| Ok (a : A)
| Err (e : exn).
Arguments Ok {A} a.
Arguments Err {A} e.

Definition bind {A B} (r : res A) (f : A -> res B) : res B :=
  match r with Ok a => f a | Err e => Err e end.

(** Python dict with keys compared by [eqb]: association list in insertion
    order.  Updating an existing key keeps its position, a new key goes last. *)
Section Alist.
  Context {K V : Type} (eqb : K -> K -> bool).

  Fixpoint aget (d : list (K * V)) (k : K) : option V :=
    match d with
    | [] => None
    | (k', v) :: r => if eqb k k' then Some v else aget r k
    end.

  Fixpoint aset (d : list (K * V)) (k : K) (v : V) : list (K * V) :=
    match d with
    | [] => [(k, v)]
    | (k', v') :: r => if eqb k k' then (k', v) :: r else (k', v') :: aset r k v
    end.

  Fixpoint adel (d : list (K * V)) (k : K) : list (K * V) :=
    match d with
    | [] => []
    | (k', v') :: r => if eqb k k' then r else (k', v') :: adel r k
    end.

  Definition keys (d : list (K * V)) : list K := map fst d.
End Alist.

(** Python list indexing [l[i]] with negative wrap-around; [None] is
    IndexError. *)
Definition py_norm (len : nat) (i : Z) : option nat :=
  let n := Z.of_nat len in
  if (0 <=? i) && (i <? n) then Some (Z.to_nat i)
  else if (- n <=? i) && (i <? 0) then Some (Z.to_nat (i + n))
  else None.

Definition py_nth {A} (l : list A) (i : Z) : option A :=
  match py_norm (length l) i with
  | Some k => nth_error l k
  | None => None
  end.

Fixpoint remove_nth {A} (k : nat) (l : list A) : list A :=
  match k, l with
  | _, [] => []
  | O, _ :: r => r
  | S k', x :: r => x :: remove_nth k' r
  end.

Fixpoint set_nth {A} (k : nat) (l : list A) (v : A) : list A :=
  match k, l with
  | _, [] => []
  | O, _ :: r => v :: r
  | S k', x :: r => x :: set_nth k' r v
  end.

(** Python [l.pop(i)] as a state change; [None] is IndexError. *)
Definition py_pop {A} (l : list A) (i : Z) : option (list A) :=
  match py_norm (length l) i with
  | Some k => Some (remove_nth k l)
  | None => None
  end.

(** Python [range(n)] as integers. *)
Definition zrange (n : nat) : list Z := map Z.of_nat (seq 0 n).

(** Python [sorted(set(l))] on integers. *)
Fixpoint zinsert (x : Z) (l : list Z) : list Z :=
  match l with
  | [] => [x]
  | y :: r => if x <? y then x :: l
              else if x =? y then l
              else y :: zinsert x r
  end.
Definition sorted_set (l : list Z) : list Z := fold_right zinsert [] l.

Definition zmem (x : Z) (l : list Z) : bool := existsb (Z.eqb x) l.
