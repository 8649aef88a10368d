(** Crystals doubled for spin, with spin-orbit coupling on the atoms. *)
From Coq Require Import Reals String Ascii.
From Verif Require Import Prelude Vec Cx S_lat S_mat S_sk S_soc.
Open Scope Z_scope.

(** Orbitals 0, ..., n-1 have spin up, orbitals n, ..., 2n-1 the same orbitals with
    spin down. *)
Definition is_up (n I : Z) : bool := I <? n.
Definition home (r : cell) : bool := let '(x, y, z) := r in (x =? 0) && (y =? 0) && (z =? 0).
(** Coupling lambda L.S between orbitals of one atom, which have one name; os
    gives the kinds of the orbitals. *)
Definition coupling (n : Z) (os : Z -> orb) (atom : Z -> string) (lam : string -> R) (r : cell) (I J : Z) : Cplx :=
  if home r && String.eqb (atom (I mod n)) (atom (J mod n))
  then sc (lam (atom (I mod n))) (l_s (os (I mod n)) (is_up n I) (os (J mod n)) (is_up n J)) else Cre 0.
Definition with_spin (c X : crystal Cplx) (os : Z -> orb) (atom : Z -> string) (lam : string -> R) : Prop :=
  let n := x_num c in
  x_num X = 2 * n /\
  (forall r I, orbital_of X I -> x_place X r I = x_place c r (I mod n)) /\
  forall r I J, orbital_of X I -> orbital_of X J ->
    x_amp X r I J = Cadd (if Bool.eqb (is_up n I) (is_up n J) then x_amp c r (I mod n) (J mod n) else Cre 0) (coupling n os atom lam r I J).

Definition both (f : bool -> Cplx) : Cplx := Cadd (f true) (f false).
Definition det3 (Q : nat -> nat -> R) : R :=
  (Q 0%nat 0%nat * (Q 1%nat 1%nat * Q 2%nat 2%nat - Q 1%nat 2%nat * Q 2%nat 1%nat)
   - Q 0%nat 1%nat * (Q 1%nat 0%nat * Q 2%nat 2%nat - Q 1%nat 2%nat * Q 2%nat 0%nat)
   + Q 0%nat 2%nat * (Q 1%nat 0%nat * Q 2%nat 1%nat - Q 1%nat 1%nat * Q 2%nat 0%nat))%R.
(** u turns spins like Q turns axial vectors. *)
Definition spin_follows (Q : nat -> nat -> R) (u : bool -> bool -> Cplx) : Prop :=
  (forall a b, both (fun s => Cmul (Cconj (u s a)) (u s b)) = if Bool.eqb a b then Cre 1 else Cre 0) /\
  forall m a b, (m < 3)%nat ->
    both (fun s => both (fun t => Cmul (Cconj (u s a)) (Cmul (half_pauli m s t) (u t b)))) =
    sc (det3 Q) (Cadd (sc (Q m 0%nat) (half_pauli 0 a b)) (Cadd (sc (Q m 1%nat) (half_pauli 1 a b)) (sc (Q m 2%nat) (half_pauli 2 a b)))).
(** Orbitals and spins turned together. *)
Definition both_turn (n : Z) (d : Z -> Z -> R) (u : bool -> bool -> Cplx) (K I : Z) : Cplx :=
  sc (d (K mod n) (I mod n)) (u (is_up n K) (is_up n I)).
(** i sigma_y *)
Definition reverse_spin (s t : bool) : Cplx := if Bool.eqb s t then Cre 0 else if s then Cre 1 else Cre (-1).
Definition same_orbital (k i : Z) : R := if k =? i then 1%R else 0%R.
(** Atoms go to atoms of the same coupling. *)
Definition atoms_move (n : Z) (atom : Z -> string) (lam : string -> R) (shift : Z -> cell) (d : Z -> Z -> R) : Prop :=
  (forall i j, 0 <= i < n -> 0 <= j < n -> atom i = atom j -> shift i = shift j) /\
  (forall i j k l, 0 <= i < n -> 0 <= j < n -> 0 <= k < n -> 0 <= l < n -> d k i <> 0%R -> d l j <> 0%R -> (atom k = atom l <-> atom i = atom j)) /\
  (forall i k, 0 <= i < n -> 0 <= k < n -> d k i <> 0%R -> lam (atom k) = lam (atom i)).
(** Names without the separator of labels. *)
Definition plain (s : string) : Prop := ~ In ":"%char (list_ascii_of_string s).
Definition spin_name (up : bool) : string := if up then "up"%string else "down"%string.

(** ** Monolayer MoS2 *)
Definition mos2_names : list (string * string) :=
  [("Mo", "dz2"); ("Mo", "dzx"); ("Mo", "dyz"); ("Mo", "dx2-y2"); ("Mo", "dxy"); ("S1", "px"); ("S1", "py"); ("S1", "pz"); ("S2", "px"); ("S2", "py"); ("S2", "pz")]%string.
Definition mos2_atom (i : Z) : string := fst (nth (Z.to_nat i) mos2_names (""%string, ""%string)).
Definition mos2_lm (i : Z) : string := snd (nth (Z.to_nat i) mos2_names (""%string, ""%string)).
Definition mos2_kind (i : Z) : orb := match orbital (mos2_lm i) with Some o => o | None => OS end.
Definition mos2_level (i : Z) : Cplx :=
  match i with
  | 0 => Cre (-1512 / 1000) | 1 | 2 => Cre (419 / 1000) | 3 | 4 => Cre (-3025 / 1000)
  | 5 | 6 | 8 | 9 => Cre (-1276 / 1000) | _ => Cre (-8236 / 1000)
  end%R.
Definition mos2_params : sk_par :=
  {| v_sss := Cre 0; v_sps := Cre 0; v_sds := Cre 0; v_pps := Cre (696 / 1000); v_ppp := Cre (278 / 1000);
     v_pds := Cre (-2619 / 1000); v_pdp := Cre (-1396 / 1000); v_dds := Cre (-933 / 1000); v_ddp := Cre (-478 / 1000); v_ddd := Cre (-442 / 1000) |}.
Definition mos2_coupling (atom : string) : R := if String.eqb atom "Mo" then (75 / 1000)%R else (52 / 1000)%R.
(** Places in nm: two layers of sulphur, with molybdenum half way between them. *)
Definition mos2_at (r : cell) (i : Z) : point :=
  let '(x, y, z) := r in
  let '(u, v, w) := (if i <? 5 then (66667 / 100000, 33333 / 100000, 1 / 2) else if i <? 8 then (0, 0, 0) else (0, 0, 1))%R in
  (316 / 1000 * (IZR x + u) - 1579999 / 10000000 * (IZR y + v), 2736640276 / 10000000000 * (IZR y + v), 3172 / 10000 * (IZR z + w))%R.
(** The reflection in the plane of molybdenum exchanges the layers of sulphur and
    changes the signs of dzx, dyz, pz. *)
Definition mos2_image (i : Z) : Z := if i <? 5 then i else if i <? 8 then i + 3 else i - 3.
Definition mos2_sign (i : Z) : R := match i with 1 | 2 | 7 | 10 => (-1)%R | _ => 1%R end.
Definition mos2_mirror (k i : Z) : R := if k =? mos2_image i then mos2_sign i else 0%R.
(** Half a turn of the spin about the z axis. *)
Definition half_turn_z (s t : bool) : Cplx := if Bool.eqb s t then (if s then (0, -1) else (0, 1))%R else Cre 0.
