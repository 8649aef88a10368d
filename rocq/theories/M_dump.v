(** Model of PrimitiveCell.print (builder/primitive.py:730-752) and of the
    banners of utils.py:355-403: the printed text.  [round5] gives the sign and
    the digits of a float rounded to five decimals by Python; [show] is str of a
    complex number. *)
From Coq Require Import Reals String Ascii.
From Verif Require Import Prelude Vec M_hop M_pc.
Local Open Scope Z_scope.
Local Open Scope list_scope.

(** str of an int *)
Definition chr (d : Z) : ascii := ascii_of_nat (Z.to_nat (48 + d)).
Fixpoint dec (k : nat) (n : Z) : string :=
  match k with O => EmptyString | S k => (dec k (n / 10) ++ String (chr (n mod 10)) EmptyString)%string end.
Fixpoint ndig (fuel : nat) (n : Z) : nat :=
  match fuel with O => 1%nat | S f => if n <? 10 then 1%nat else S (ndig f (n / 10)) end.
Definition nat_repr (n : Z) : string := dec (ndig (S (Z.to_nat (Z.log2 n))) n) n.
Definition int_repr (z : Z) : string := if z <? 0 then ("-" ++ nat_repr (- z))%string else nat_repr z.

(** s * n of Python *)
Fixpoint srep (s : string) (n : nat) : string := match n with O => EmptyString | S n => (s ++ srep s n)%string end.
Definition times (s : string) (n : Z) : string := srep s (Z.to_nat n).

Section Dump.
  Context (round5 : R -> bool * Z).
  (** f"{v:10.5f}" *)
  Definition fixed5 (v : R) : string :=
    let '(neg, n) := round5 v in
    ((if neg then "-" else "") ++ nat_repr (n / 100000) ++ "." ++ dec 5 (n mod 100000))%string.
  Definition col (v : R) : string := let t := fixed5 v in (times " " (10 - Z.of_nat (String.length t)) ++ t)%string.

  (** 737-739, 742, 746 *)
  Definition vec_line (v : vec R) : string := let '(x, y, z) := v in (col x ++ col y ++ col z)%string.

  Context {E L : Type} (show : E -> string).
  (** 744-748 *)
  Definition orb_line (o : orbital R R L) : string := (vec_line (position o) ++ col (energy o))%string.
  (** 752; print puts a blank between its arguments *)
  Definition hop_line (t : rn3 * pair2 * E) : string :=
    let '((a, b, c), (i, j), e) := t in
    ("  (" ++ int_repr a ++ ", " ++ int_repr b ++ ", " ++ int_repr c ++ ") (" ++ int_repr i ++ ", " ++ int_repr j ++ ") " ++ show e)%string.
  Definition pc_print (lat : mat R) (org : vec R) (p : pc E R R L) : list string :=
    let '(a0, a1, a2) := lat in
    ["Lattice origin (nm):"%string; vec_line org; "Lattice vectors (nm):"%string; vec_line a0; vec_line a1; vec_line a2; "Orbitals:"%string]
    ++ map orb_line (orbs p) ++ "Hopping terms:"%string :: map hop_line (flatten (hop p)).
End Dump.

(** utils.py:355-374 *)
Definition banner_line (text : string) (width : Z) (mark fin : string) : string :=
  let total := width - Z.of_nat (String.length text) - 4 in
  let left := total / 2 in let right := total - left in
  (fin ++ times mark left ++ " " ++ text ++ " " ++ times mark right ++ fin)%string.
(** utils.py:377-403 *)
Definition banner_block (text : string) (width : Z) (mark fin : string) : list string :=
  let total := width - Z.of_nat (String.length text) - 2 in
  let left := total / 2 in let right := total - left in
  let border := (fin ++ times mark (width - 2) ++ fin)%string in
  [border; (fin ++ times " " left ++ text ++ times " " right ++ fin)%string; border].
