(** What a printed cell says. *)
From Coq Require Import Reals String Ascii.
From Verif Require Import Prelude Vec S_w90.
Local Open Scope Z_scope.
Local Open Scope list_scope.

(** equal to five decimals *)
Definition close (x v : R) : Prop := (Rabs (x - v) <= / 200000)%R.
(** rounding to five decimals: sign and digits *)
Definition rounds (f : R -> bool * Z) : Prop :=
  forall v, 0 <= snd (f v) /\ close ((if fst (f v) then -1 else 1) * (IZR (snd (f v)) / 100000)) v.
(** numbers of at most two digits before the point if negative, three if not *)
Definition narrow (v : R) : Prop := (- (10000000 - / 2) / 100000 < v < (100000000 - / 2) / 100000)%R.
(** a line of numbers in columns of ten characters *)
Definition numbers_line (line : string) (vs : list R) : Prop :=
  String.length line = (10 * List.length vs)%nat /\
  exists ws xs, spells line ws /\ Forall2 number_text ws xs /\ Forall2 close xs vs.
(** a line of a hopping term: cell, orbitals, energy *)
Definition term_line {E} (show : E -> string) (line : string) (a b c i j : Z) (e : E) : Prop :=
  exists ta tb tc ti tj, int_text ta a /\ int_text tb b /\ int_text tc c /\ int_text ti i /\ int_text tj j /\
    line = "  (" +++ ta +++ ", " +++ tb +++ ", " +++ tc +++ ") (" +++ ti +++ ", " +++ tj +++ ") " +++ show e.
(** a text between two runs of a character [c] which differ by at most one *)
Fixpoint run_of (c : ascii) (n : nat) : string := match n with O => EmptyString | S n => String c (run_of c n) end.
Definition centred (c : ascii) (text line : string) : Prop :=
  exists l r, line = run_of c l +++ text +++ run_of c r /\ (l <= r <= S l)%nat.
