(** How numbers are written in text files, and the layout of the files of
    Wannier90. *)
From Coq Require Import Reals String Ascii.
From Verif Require Import Prelude.
Local Open Scope Z_scope.
Local Open Scope list_scope.
Infix "+++" := String.append (at level 60, right associativity).

Definition blank_char (c : ascii) : Prop := In (nat_of_ascii c) [9; 10; 11; 12; 13; 28; 29; 30; 31; 32]%nat.
Definition blank (s : string) : Prop := Forall blank_char (list_ascii_of_string s).
Definition word (s : string) : Prop := s <> EmptyString /\ Forall (fun c => ~ blank_char c) (list_ascii_of_string s).
(** the words of a line, with any amount of blanks around them *)
Inductive spells : string -> list string -> Prop :=
| sp_end g : blank g -> spells g []
| sp_last g w : blank g -> word w -> spells (g +++ w) [w]
| sp_more g w b s ws : blank g -> word w -> blank_char b -> spells s ws -> spells (g +++ w +++ String b s) (w :: ws).
(** a text with blanks around it *)
Definition padded (s t : string) : Prop := exists g h, blank g /\ blank h /\ s = g +++ t +++ h.

Definition digit_char (c : ascii) (d : Z) : Prop := 0 <= d < 10 /\ Z.of_nat (nat_of_ascii c) = 48 + d.
(** [numeral s n k]: s is the number n written with k decimal digits *)
Inductive numeral : string -> Z -> nat -> Prop :=
| num_nil : numeral EmptyString 0 0
| num_snoc s n k c d : numeral s n k -> digit_char c d -> numeral (s +++ String c EmptyString) (10 * n + d) (S k).
Definition sign_text (s : string) (sg : Z) : Prop := (s = ""%string /\ sg = 1) \/ (s = "+"%string /\ sg = 1) \/ (s = "-"%string /\ sg = - 1).
(** integers *)
Definition int_text (s : string) (z : Z) : Prop :=
  exists sg g ds n k, sign_text sg g /\ numeral ds n (S k) /\ s = sg +++ ds /\ z = g * n.
(** numbers with a point and an exponent, both optional *)
Definition fraction_text (s : string) (m : Z) (l : nat) : Prop := (s = ""%string /\ m = 0 /\ l = O) \/ exists fp, s = String "." fp /\ numeral fp m l.
Definition exponent_text (s : string) (e : Z) : Prop := (s = ""%string /\ e = 0) \/ exists c t, (c = "e" \/ c = "E")%char /\ s = String c t /\ int_text t e.
Definition number_text (s : string) (x : R) : Prop :=
  exists sg g ip n k f m l ex e, sign_text sg g /\ numeral ip n k /\ fraction_text f m l /\ exponent_text ex e /\ (0 < k + l)%nat
    /\ s = sg +++ ip +++ f +++ ex /\ x = (IZR g * (IZR n + IZR m / 10 ^ l) * powerRZ 10 e)%R.

(** three numbers in a line *)
Definition row_text (line : string) (v : R * R * R) : Prop :=
  exists x y z, spells line [x; y; z] /\ number_text x (fst (fst v)) /\ number_text y (snd (fst v)) /\ number_text z (snd v).

(** seedname.win: the lattice vectors stand between two keywords, with an
    optional line for the unit of length [u]; the keywords stand nowhere else *)
Definition keyword (k line : string) : Prop := exists g t, blank g /\ line = g +++ k +++ t.
Definition unit_text (bohr : R) (lines : list string) (u : R) : Prop :=
  (lines = [] /\ u = 1%R) \/ exists l w, lines = [l] /\ padded l w
    /\ (((w = "Ang" \/ w = "ang")%string /\ u = 1%R) \/ ((w = "Bohr" \/ w = "bohr")%string /\ u = bohr)).
Definition win_layout (bohr : R) (win : list string) (a0 a1 a2 : R * R * R) (u : R) : Prop :=
  exists pre b us l0 l1 l2 e post, win = pre ++ b :: us ++ l0 :: l1 :: l2 :: e :: post
    /\ keyword "begin unit_cell_cart" b /\ keyword "end unit_cell_cart" e /\ unit_text bohr us u
    /\ row_text l0 a0 /\ row_text l1 a1 /\ row_text l2 a2
    /\ Forall (fun l => ~ keyword "begin unit_cell_cart" l /\ ~ keyword "end unit_cell_cart" l) (pre ++ post).

(** seedname_centres.xyz: two lines of header, then the centres, marked by X,
    and the atoms *)
Inductive xyz_body : list string -> list (R * R * R) -> Prop :=
| xyz_nil : xyz_body [] []
| xyz_centre line x y z v ls vs : spells line ["X"%string; x; y; z] -> number_text x (fst (fst v)) -> number_text y (snd (fst v)) -> number_text z (snd v)
    -> xyz_body ls vs -> xyz_body (line :: ls) (v :: vs)
| xyz_atom line w ws ls vs : spells line (w :: ws) -> w <> "X"%string -> xyz_body ls vs -> xyz_body (line :: ls) vs.
Definition xyz_layout (xyz : list string) (vs : list (R * R * R)) : Prop :=
  exists h1 h2 ls, xyz = h1 :: h2 :: ls /\ xyz_body ls vs.

(** seedname_hr.dat: a comment, the number of orbitals, the number n of cells,
    n degeneracies with 15 in a line, the matrix elements.  What follows the
    expected words of a line has no meaning. *)
Definition hop_text (line : string) (r : (Z * Z * Z) * Z * Z * (R * R)) : Prop :=
  let '((a, b, c), i, j, (x, y)) := r in
  exists w0 w1 w2 w3 w4 w5 w6 more, spells line (w0 :: w1 :: w2 :: w3 :: w4 :: w5 :: w6 :: more)
    /\ int_text w0 a /\ int_text w1 b /\ int_text w2 c /\ int_text w3 i /\ int_text w4 j /\ number_text w5 x /\ number_text w6 y.
Definition int_line (line : string) (z : Z) : Prop := exists t, padded line t /\ int_text t z.
Definition hr_layout (hr : list string) (rows : list ((Z * Z * Z) * Z * Z * (R * R))) : Prop :=
  exists title num cells deg body n, hr = title :: num :: cells :: deg ++ body
    /\ int_line cells n /\ 15 * (Z.of_nat (List.length deg) - 1) < n <= 15 * Z.of_nat (List.length deg)
    /\ Forall2 hop_text body rows.

(** seedname_wsvec.dat: a comment, then for each matrix element its indices, the
    number of shifts and the shifts *)
Definition vec_text (line : string) (v : Z * Z * Z) : Prop :=
  let '(a, b, c) := v in exists w0 w1 w2 more, spells line (w0 :: w1 :: w2 :: more) /\ int_text w0 a /\ int_text w1 b /\ int_text w2 c.
Inductive ws_body : list string -> list ((Z * Z * Z) * Z * Z * list (Z * Z * Z)) -> Prop :=
| ws_nil : ws_body [] []
| ws_cons first num vecs rest w0 w1 w2 w3 w4 more a b c i j vs bs :
    spells first (w0 :: w1 :: w2 :: w3 :: w4 :: more) -> int_text w0 a -> int_text w1 b -> int_text w2 c -> int_text w3 i -> int_text w4 j
    -> int_line num (Z.of_nat (List.length vs)) -> Forall2 vec_text vecs vs -> ws_body rest bs
    -> ws_body (first :: num :: vecs ++ rest) (((a, b, c), i, j, vs) :: bs).
Definition ws_layout (ws : list string) (bs : list ((Z * Z * Z) * Z * Z * list (Z * Z * Z))) : Prop :=
  exists title ls, ws = title :: ls /\ ws_body ls bs.
