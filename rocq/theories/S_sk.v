(** Two-centre integrals between s, p and d orbitals, written with tensors.
    No model definitions. *)
From Coq Require Import Reals String.
From Verif Require Import Prelude Vec Cx.
Local Open Scope R_scope.

Definition v3 : Type := (R * R * R)%type.
Definition comp (v : v3) (i : nat) : R := match i with O => fst (fst v) | 1%nat => snd (fst v) | _ => snd v end.
Definition sum3 (f : nat -> R) : R := f 0%nat + f 1%nat + f 2%nat.
Definition dot3 (u v : v3) : R := sum3 (fun i => comp u i * comp v i).
(** An orbital: a number, a vector, or a symmetric traceless matrix. *)
Inductive orb := OS | OP (e : v3) | OD (D : nat -> nat -> R).
Definition app3 (D : nat -> nat -> R) (u : v3) : v3 := let f i := sum3 (fun j => D i j * comp u j) in (f 0%nat, f 1%nat, f 2%nat).
Definition quad (D : nat -> nat -> R) (u : v3) : R := dot3 u (app3 D u).
Definition tr2 (D D' : nat -> nat -> R) : R := sum3 (fun i => sum3 (fun j => D i j * D' j i)).

(** The symmetric matrix with the six entries xx, yy, zz, xy, yz, zx. *)
Definition sym (xx yy zz xy yz zx : R) (i j : nat) : R :=
  match i, j with
  | O, O => xx | 1%nat, 1%nat => yy | 2%nat, 2%nat => zz
  | O, 1%nat | 1%nat, O => xy
  | 1%nat, 2%nat | 2%nat, 1%nat => yz
  | O, 2%nat | 2%nat, O => zx
  | _, _ => 0
  end.
(** The nine orbitals by name.  Their values at the unit vector u: 1, u_i,
    sqrt 3 xy, ..., sqrt 3 / 2 (x^2 - y^2), z^2 - (x^2 + y^2) / 2. *)
Definition orbital (label : string) : option orb :=
  let h := sqrt 3 / 2 in
  if String.eqb label "s" then Some OS
  else if String.eqb label "px" then Some (OP (1, 0, 0))
  else if String.eqb label "py" then Some (OP (0, 1, 0))
  else if String.eqb label "pz" then Some (OP (0, 0, 1))
  else if String.eqb label "dxy" then Some (OD (sym 0 0 0 h 0 0))
  else if String.eqb label "dyz" then Some (OD (sym 0 0 0 0 h 0))
  else if String.eqb label "dzx" then Some (OD (sym 0 0 0 0 0 h))
  else if String.eqb label "dx2-y2" then Some (OD (sym h (- h) 0 0 0 0))
  else if String.eqb label "dz2" then Some (OD (sym (- (1 / 2)) (- (1 / 2)) 1 0 0 0))
  else None.
(** sss sps sds pps ppp pds pdp dds ddp ddd *)
Record sk_par := { v_sss : Cplx; v_sps : Cplx; v_sds : Cplx; v_pps : Cplx; v_ppp : Cplx; v_pds : Cplx; v_pdp : Cplx; v_dds : Cplx; v_ddp : Cplx; v_ddd : Cplx }.
Definition sc (a : R) (v : Cplx) : Cplx := Cmul (Cre a) v.
(** The integral <o1, 0 | H | o2, r> for r along the unit vector u: each
    parameter times the overlap of the parts of the two orbitals with the same
    angular momentum about u. *)
Definition two_centre (o1 o2 : orb) (u : v3) (V : sk_par) : Cplx :=
  match o1, o2 with
  | OS, OS => v_sss V
  | OS, OP e => sc (dot3 e u) (v_sps V)
  | OP e, OS => sc (- dot3 e u) (v_sps V)
  | OS, OD D | OD D, OS => sc (quad D u) (v_sds V)
  | OP e, OP e' => Cadd (sc (dot3 e u * dot3 e' u) (v_pps V)) (sc (dot3 e e' - dot3 e u * dot3 e' u) (v_ppp V))
  | OP e, OD D => Cadd (sc (dot3 e u * quad D u) (v_pds V)) (sc (2 / sqrt 3 * (dot3 e (app3 D u) - dot3 e u * quad D u)) (v_pdp V))
  | OD D, OP e => Cadd (sc (- (dot3 e u * quad D u)) (v_pds V)) (sc (- (2 / sqrt 3 * (dot3 e (app3 D u) - dot3 e u * quad D u))) (v_pdp V))
  | OD D, OD D' =>
    let ss := quad D u * quad D' u in let pp := dot3 (app3 D u) (app3 D' u) in
    Cadd (sc ss (v_dds V)) (Cadd (sc (4 / 3 * (pp - ss)) (v_ddp V)) (sc (2 / 3 * tr2 D D' - 4 / 3 * pp + 1 / 3 * ss) (v_ddd V)))
  end.
(** Rotations of orbitals. *)
Definition rot (Q : nat -> nat -> R) (u : v3) : v3 := app3 Q u.
Definition rot_orb (Q : nat -> nat -> R) (o : orb) : orb :=
  match o with
  | OS => OS
  | OP e => OP (rot Q e)
  | OD D => OD (fun i j => sum3 (fun k => sum3 (fun l => Q i k * D k l * Q j l)))
  end.
Definition orthogonal (Q : nat -> nat -> R) : Prop :=
  forall i j, (i < 3)%nat -> (j < 3)%nat -> sum3 (fun k => Q k i * Q k j) = (if Nat.eqb i j then 1 else 0).
Definition real_par (V : sk_par) : Prop :=
  snd (v_sss V) = 0 /\ snd (v_sps V) = 0 /\ snd (v_sds V) = 0 /\ snd (v_pps V) = 0 /\ snd (v_ppp V) = 0 /\
  snd (v_pds V) = 0 /\ snd (v_pdp V) = 0 /\ snd (v_dds V) = 0 /\ snd (v_ddp V) = 0 /\ snd (v_ddd V) = 0.
Definition conj_par (V : sk_par) : sk_par :=
  {| v_sss := Cconj (v_sss V); v_sps := Cconj (v_sps V); v_sds := Cconj (v_sds V); v_pps := Cconj (v_pps V); v_ppp := Cconj (v_ppp V);
     v_pds := Cconj (v_pds V); v_pdp := Cconj (v_pdp V); v_dds := Cconj (v_dds V); v_ddp := Cconj (v_ddp V); v_ddd := Cconj (v_ddd V) |}.
