(** A dictionary of hopping matrices as a function: the amplitude from orbital
    i to orbital j in cell R, zero unless set. *)
From Verif Require Import Prelude Vec M_hopdict.

Section Spec.
  Context {E : Type} {SE : Scalar E} (conj : E -> E) (big : E -> bool).
  Definition adict := Z * Z * Z -> Z -> Z -> E.
  Definition same (f g : adict) : Prop := forall R i j, f R i j = g R i j.
  Definition two_or_three (rn : list Z) : Prop := length rn = 2%nat \/ length rn = 3%nat.
  Definition cell_of (rn : list Z) : Z * Z * Z := (nth 0 rn 0, nth 1 rn 0, nth 2 rn 0).
  Definition square (n : Z) (m : list (list E)) : Prop :=
    Z.of_nat (length m) = n /\ forall row, In row m -> Z.of_nat (length row) = n.
  Definition at_ (m : list (list E)) (i j : Z) : E := nth (Z.to_nat j) (nth (Z.to_nat i) m []) s0.
  (** Python's reading of an index. *)
  Definition wrapped (n k : Z) (m : Z) : Prop := (0 <= k < n /\ m = k) \/ (- n <= k < 0 /\ m = k + n).

  Definition dspec (n : Z) (f : adict) (o : dop E) (f' : adict) (a : res unit) : Prop :=
    match o with
    | DSet rn m =>
        (~ two_or_three rn /\ same f' f /\ a = Err CellIndexLenError) \/
        (two_or_three rn /\ ~ square n m /\ same f' f /\ a = Err ValueError) \/
        (two_or_three rn /\ square n m /\
         (forall i j, 0 <= i < n -> 0 <= j < n -> f' (cell_of rn) i j = at_ m i j) /\
         (forall R i j, R <> cell_of rn -> f' R i j = f R i j) /\
         ((cell_of rn = (0, 0, 0) /\ (exists i, 0 <= i < n /\ big (at_ m i i) = true) /\ a = Err PCHopDiagonalError) \/
          (~ (cell_of rn = (0, 0, 0) /\ exists i, 0 <= i < n /\ big (at_ m i i) = true) /\ a = Ok tt)))
    | DItem rn i j e =>
        (~ two_or_three rn /\ same f' f /\ a = Err CellIndexLenError) \/
        (two_or_three rn /\ ~ (- n <= i < n /\ - n <= j < n) /\ same f' f /\ a = Err IndexError) \/
        (two_or_three rn /\ exists i' j', wrapped n i i' /\ wrapped n j j' /\
         f' (cell_of rn) i' j' = e /\
         (forall R k l, (R, k, l) <> (cell_of rn, i', j') -> f' R k l = f R k l) /\ a = Ok tt)
    end.
  (** A whole history. *)
  Fixpoint dhistory (n : Z) (f : adict) (os : list (dop E)) (l : list (res unit)) (f' : adict) : Prop :=
    match os, l with
    | [], [] => same f' f
    | o :: os, a :: l => exists g, dspec n f o g a /\ dhistory n g os l f'
    | _, _ => False
    end.
  Definition minus (r : Z * Z * Z) : Z * Z * Z := let '(a, b, c) := r in (- a, - b, - c).
  (** The two orientations of a term agree if both are given. *)
  Definition consistent (f : adict) : Prop :=
    forall R i j, f R i j <> s0 -> f (minus R) j i <> s0 -> f (minus R) j i = conj (f R i j).
  (** Amplitudes of a cell after the dictionary has been added. *)
  Definition overlaid (f : adict) (n : Z) (old new : Z * Z * Z -> Z -> Z -> option E) : Prop :=
    forall R i j,
      (0 <= i < n -> 0 <= j < n -> f R i j <> s0 -> new R i j = Some (f R i j)) /\
      (0 <= i < n -> 0 <= j < n -> f (minus R) j i <> s0 -> new R i j = Some (conj (f (minus R) j i))) /\
      (~ (0 <= i < n /\ 0 <= j < n) \/ (f R i j = s0 /\ f (minus R) j i = s0) -> new R i j = old R i j).
End Spec.
