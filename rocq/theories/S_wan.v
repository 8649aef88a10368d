(** What a Wannier90 model means: the amplitude between two orbitals in cells
    separated by R is the sum of all matrix elements moved there. *)
From Verif Require Import Prelude Vec Cx.

Definition key5 : Type := ((Z * Z * Z) * (Z * Z))%type.
Definition key5_eqb (a b : key5) : bool :=
  let '((a1, a2, a3), (a4, a5)) := a in let '((b1, b2, b3), (b4, b5)) := b in
  (a1 =? b1) && (a2 =? b2) && (a3 =? b3) && (a4 =? b4) && (a5 =? b5).
Definition moved (s : key5) (T : Z * Z * Z) : key5 :=
  let '((a, b, c), p) := s in let '(x, y, z) := T in ((a + x, b + y, c + z), p).
Definition reverse5 (s : key5) : key5 := let '((a, b, c), (i, j)) := s in ((- a, - b, - c), (j, i)).
Definition opp3 (T : Z * Z * Z) : Z * Z * Z := let '(a, b, c) := T in (- a, - b, - c).

Section Wan.
  Context {E : Type} {SE : Scalar E} (over : E -> nat -> E).
  (** Each matrix element (s, e) is shared equally among its shifts [sh s]. *)
  Definition amount (rows : list (key5 * E)) (sh : key5 -> list (Z * Z * Z)) (t : key5) : E :=
    esum (map (fun r => esum (map (fun T => if key5_eqb (moved (fst r) T) t then over (snd r) (length (sh (fst r))) else s0) (sh (fst r)))) rows).
  (** Matrix elements without an entry in the table stay. *)
  Definition shifts (ws : list (key5 * list (Z * Z * Z))) (s : key5) : list (Z * Z * Z) :=
    match aget key5_eqb ws s with Some l => l | None => [(0, 0, 0)] end.
  (** No two contributions meet, and nothing lands on a matrix element that is
      still to be read. *)
  Definition apart (rows : list (key5 * E)) (ws : list (key5 * list (Z * Z * Z))) : Prop :=
    (forall s s' T T', In s (map fst rows) -> In s' (map fst rows) -> In T (shifts ws s) -> In T' (shifts ws s') -> moved s T = moved s' T' -> s = s')
    /\ (forall a s b T, map fst ws = a ++ s :: b -> In T (shifts ws s) -> In (moved s T) (map fst rows) -> moved s T = s \/ In (moved s T) a).
  (** Hermitian data. *)
  Definition hermitian_rows (conj : E -> E) (rows : list (key5 * E)) : Prop := forall s e, In (s, e) rows -> In (reverse5 s, conj e) rows.
  Definition symmetric_shifts (ws : list (key5 * list (Z * Z * Z))) : Prop :=
    forall s, length (shifts ws (reverse5 s)) = length (shifts ws s) /\ forall T, In T (shifts ws s) -> In (opp3 T) (shifts ws (reverse5 s)).
End Wan.
