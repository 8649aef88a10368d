(** Specification of orbital numbering in supercells, independent of the
    conversion formulas: an enumeration of the sites of the supercell. *)
From Verif Require Import Prelude.

(** Site (ia, ib, ic, io): orbital io of the copy (ia, ib, ic). *)
Definition site := (Z * Z * Z * Z)%type.

Definition in_cell (dim : Z * Z * Z) (n : Z) (t : site) : Prop :=
  let '(na, nb, nc) := dim in let '(a, b, c, o) := t in
  0 <= a < na /\ 0 <= b < nb /\ 0 <= c < nc /\ 0 <= o < n.

(** Lexicographic order of sites. *)
Definition lex (s t : site) : Prop :=
  let '(a, b, c, o) := s in let '(a', b', c', o') := t in
  a < a' \/ (a = a' /\ (b < b' \/ (b = b' /\ (c < c' \/ (c = c' /\ o < o'))))).

(** [l] lists the sites that are not vacant, each once, in order. *)
Definition enumerates (dim : Z * Z * Z) (n : Z) (vacant : site -> Prop) (l : list site) : Prop :=
  (forall t, In t l <-> in_cell dim n t /\ ~ vacant t) /\
  (forall p q s t, (p < q)%nat -> nth_error l p = Some s -> nth_error l q = Some t -> lex s t).

(** Number of elements of a list below x. *)
Definition count_below (l : list Z) (x : Z) : Z :=
  Z.of_nat (length (filter (fun v => v <? x) l)).

(** Strictly increasing. *)
Fixpoint increasing (l : list Z) : Prop :=
  match l with
  | [] => True
  | x :: r => (forall y, In y r -> x < y) /\ increasing r
  end.

(** Position of number x among the numbers not listed as vacant. *)
Definition vac_index (vac : list Z) (x : Z) : Z :=
  if existsb (Z.eqb x) vac then -1 else x - count_below vac x.

Definition positive (dim : Z * Z * Z) : Prop :=
  let '(na, nb, nc) := dim in 0 < na /\ 0 < nb /\ 0 < nc.

(** The tuple as the user writes it. *)
Definition row (t : site) : list Z := let '(a, b, c, o) := t in [a; b; c; o].
