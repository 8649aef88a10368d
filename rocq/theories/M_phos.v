(** Model of tbplas/materials/phosphorene.py.
    Decimal literals are exact; sin and cos are the real functions. *)
From Coq Require Import String Reals.
From Verif Require Import Prelude Vec Qs Cx M_hop M_pc M_super M_lat M_hopdict M_graphene M_kane.
Open Scope Z_scope.

Section Terms.
  (** q a b: the number a / b. *)
  Context {E : Type} (q : Z -> positive -> E).
  (** phosphorene.py:31-40 *)
  Definition ph_t (k : Z) : E :=
    if k =? 1 then q (-1486) 1000 else if k =? 2 then q 3729 1000 else if k =? 3 then q (-252) 1000 else
    if k =? 4 then q (-71) 1000 else if k =? 5 then q 19 1000 else if k =? 6 then q 186 1000 else
    if k =? 7 then q (-63) 1000 else if k =? 8 then q 101 1000 else if k =? 9 then q (-42) 1000 else q 73 1000.
  (** phosphorene.py:64-107: cell, orbitals and energy of each call. *)
  Definition ph_hops : list (list Z * Z * Z * E) :=
    let t_ := ph_t in [
   ([0; 0], 0, 1, t_ 2); ([0; -1], 0, 3, t_ 1); ([-1; -1], 0, 3, t_ 1);
   ([0; 0], 0, 2, t_ 5); ([-1; 0], 0, 2, t_ 5); ([0; -1], 0, 2, t_ 5);
   ([-1; -1], 0, 2, t_ 5); ([0; 0], 0, 3, t_ 4); ([-1; 0], 0, 3, t_ 4);
   ([0; -1], 0, 1, t_ 6); ([1; 0], 0, 0, t_ 3); ([0; 1], 0, 0, t_ 7);
   ([-2; -1], 0, 3, t_ 8); ([1; -1], 0, 3, t_ 8); ([-1; -1], 0, 1, t_ 9);
   ([1; -1], 0, 1, t_ 9); ([1; 1], 0, 0, t_ 10); ([-1; 1], 0, 0, t_ 10);
   ([0; 0], 1, 2, t_ 1); ([-1; 0], 1, 2, t_ 1); ([-1; -1], 1, 3, t_ 5);
   ([0; -1], 1, 3, t_ 5); ([0; 0], 1, 3, t_ 5); ([-1; 0], 1, 3, t_ 5);
   ([-1; -1], 1, 2, t_ 4); ([0; -1], 1, 2, t_ 4); ([1; 0], 1, 1, t_ 3);
   ([0; 1], 1, 1, t_ 7); ([-2; 0], 1, 2, t_ 8); ([1; 0], 1, 2, t_ 8);
   ([1; 1], 1, 1, t_ 10); ([-1; 1], 1, 1, t_ 10); ([1; 0], 2, 2, t_ 3);
   ([0; 1], 2, 2, t_ 7); ([1; 1], 2, 2, t_ 10); ([-1; 1], 2, 2, t_ 10);
   ([0; 0], 2, 3, t_ 2); ([0; -1], 2, 3, t_ 6); ([-1; -1], 2, 3, t_ 9);
   ([1; -1], 2, 3, t_ 9); ([1; 0], 3, 3, t_ 3); ([0; 1], 3, 3, t_ 7);
   ([1; 1], 3, 3, t_ 10); ([-1; 1], 3, 3, t_ 10)
  ].
End Terms.

(** phosphorene.py:24-28, 43-46 *)
Definition dist_nn : R := (22156 / 100000)%R.
Definition dist_nnb : R := (7159 / 100000)%R.
Definition ph_theta : R := (48395 / 1000)%R.
Definition ph_theta_z : R := (108657 / 1000)%R.
Definition dist_nz : R := (22378 / 100000)%R.
(** numpy.radians *)
Definition radians (d : R) : R := (d * PI / 180)%R.
Definition ph_a : R := (2 * dist_nn * sin (radians ph_theta))%R.
Definition ph_b : R := (2 * dist_nnb + 2 * dist_nn * cos (radians ph_theta))%R.
Definition ph_p : R := dist_nnb.
Definition ph_q : R := (dist_nz * cos (radians (ph_theta_z - 90)))%R.
(** phosphorene.py:47 *)
Definition ph_lat (c : R) : mat R := ((ph_a, 0, 0), (0, ph_b, 0), (0, 0, c))%R.
(** phosphorene.py:50-54 *)
Definition ph_coords : list (vec R) :=
  [(0, 0, 0); (0, ph_p, ph_q); (ph_a / 2, ph_b / 2, ph_q); (ph_a / 2, ph_b / 2 + ph_p, 0)]%R.
(** phosphorene.py:60-61: the calls of add_orbital. *)
Definition orb_op (lb : string) (x : vec R) : op Cplx R Cplx string :=
  let '(a, b, c) := x in OpAddOrb [a; b; c] s0 lb.
(** phosphorene.py:12-108 make_black_phosphorus; unit NM keeps the vectors. *)
Definition black_phosphorus (c : R) : res (material Cplx R) :=
  bind (cart2frac (ph_lat c) ph_coords (0, 0, 0)%R) (fun xs =>
  bind (script Cconj 0%R pc_empty (map (orb_op "P_pz"%string) xs ++ map (fun w : list Z * Z * Z * Cplx => let '(rn, i, j, e) := w in OpAddHop rn i j e) (ph_hops Cq))) (fun s =>
  Ok {| m_lat := ph_lat c; m_pc := s |})).
