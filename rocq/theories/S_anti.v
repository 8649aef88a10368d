(** Three p orbitals on each of two sites, with or without spin: how motions
    of the crystal act on them. *)
From Coq Require Import Reals.
From Verif Require Import Prelude Vec Cx S_lat S_mat S_kane.
Open Scope Z_scope.

(** Site, number of the p orbital and spin (true: down) of orbital i. *)
Definition p_site (spin : bool) (i : Z) : Z := i / (if spin then 6 else 3).
Definition p_num (i : Z) : Z := i mod 3.
Definition p_down (spin : bool) (i : Z) : bool := spin && Z.odd (i / 3).
(** Orbital n on site s goes to orbital f n on site s, or on the other site,
    and the spins are transformed by u. *)
Definition p_moved (spin swap : bool) (f : Z -> Z) (u : bool -> bool -> Cplx) (k i : Z) : Cplx :=
  if (p_site spin k =? (if swap then 1 - p_site spin i else p_site spin i)) && (p_num k =? f (p_num i))
  then (if spin then u (p_down spin k) (p_down spin i) else Cre 1) else Cre 0.
Definition no_change (n : Z) : Z := n.
Definition swap_ends (n : Z) : Z := 2 - n.
Definition cycle (n : Z) : Z := (n + 1) mod 3.
Definition negate (p : point) : point := let '(x, y, z) := p in (- x, - y, - z)%R.
(** The rotation by a third of a turn about the vertical line through u. *)
Definition rot3_about (u p : point) : point := vadd (rot3 (diff3 p u)) u.
