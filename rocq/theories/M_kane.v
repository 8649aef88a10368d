(** Model of tbplas/materials/graphene.py: make_graphene_soc.
    Decimal literals, quotients and math.sqrt(3) are exact, real numbers are
    elements of the complex ones.  The hoppings are written over any scalars with a square root of three
    and an imaginary unit, of which the complex numbers are the intended ones. *)
From Coq Require Import String Reals.
From Verif Require Import Prelude Vec Qs Cx M_hop M_pc M_super M_lat M_hopdict M_graphene L_gersh.
Open Scope Z_scope.

Section Dscript.
  Context {E : Type} {SE : Scalar E} (big : E -> bool).
  (** Assignments to a dictionary in sequence; the first error ends the function. *)
  Fixpoint dscript (d : hd E) (os : list (dop E)) : res (hd E) :=
    match os with
    | [] => Ok d
    | o :: r => match dstep big d o with
                | (d', Ok _) => dscript d' r
                | (_, Err x) => Err x
                end
    end.
End Dscript.

(** numpy: m[i, j] = e and m[i0:, j0:] = b for a block that fits. *)
Section Blocks.
  Context {E : Type} {SE : Scalar E}.
  Definition mset (m : list (list E)) (i j : nat) (e : E) : list (list E) :=
    match nth_error m i with Some row => set_nth i m (set_nth j row e) | None => m end.
  Definition put_block (m : list (list E)) (i0 j0 : nat) (b : list (list E)) : list (list E) :=
    fold_left (fun m q => fold_left (fun m c => mset m (i0 + Z.to_nat (fst q)) (j0 + Z.to_nat (fst c)) (snd c)) (enum (snd q)) m) (enum b) m.
End Blocks.

Section Kane.
  (** q a b: the number a / b; s3, is3: the square root of three and its
      inverse; ii: the imaginary unit. *)
  Context {E : Type} {SE : Scalar E} (q : Z -> positive -> E) (s3 is3 ii : E).
  (** graphene.py:137-144 *)
  Definition k_t : E := sopp s1.
  Definition lamb_so : E := smul (q 6 100) k_t.
  Definition lamb_r : E := smul (q 5 100) k_t.
  Definition lamb_nu (is_qsh : bool) : E := if is_qsh then smul (q 1 10) k_t else smul (q 4 10) k_t.
  (** graphene.py:152-156: add_orbital with the default label. *)
  Definition soc_orb_ops (is_qsh : bool) : list (op E Qc E string) :=
    [OpAddOrb [q_ 0 1; q_ 0 1] (lamb_nu is_qsh) "X"%string; OpAddOrb [q_ 0 1; q_ 0 1] (lamb_nu is_qsh) "X"%string;
     OpAddOrb [q_ 1 3; q_ 1 3] (sopp (lamb_nu is_qsh)) "X"%string; OpAddOrb [q_ 1 3; q_ 1 3] (sopp (lamb_nu is_qsh)) "X"%string].
  (** graphene.py:159-163 _hop_1st *)
  Definition hop_1st (v : vec E) : list (list E) :=
    let '(x, y, _) := v in
    let a := sadd y (smul ii x) in let ac := ssub y (smul ii x) in
    [[k_t; smul (smul ii a) lamb_r]; [smul (smul ii ac) lamb_r; k_t]].
  (** graphene.py:165-168 _hop_2nd: only component 2 of the cross product is
      used, which numpy computes as v0[0] * v1[1] - v0[1] * v1[0]. *)
  Definition hop_2nd (v0 v1 : vec E) : list (list E) :=
    let '(x0, y0, _) := v0 in let '(x1, y1, _) := v1 in
    let b2 := smul (smul (sZ 2) is3) (ssub (smul x0 y1) (smul y0 x1)) in
    [[smul (smul ii b2) lamb_so; s0]; [s0; smul (smul (sopp ii) b2) lamb_so]].
  (** graphene.py:171-176 *)
  Definition ac_vec (k : Z) : vec E :=
    if k =? 0 then (s1, s0, s0) else if k =? 1 then (sopp (q 1 2), smul s3 (q 1 2), s0) else (sopp (q 1 2), sopp (smul s3 (q 1 2)), s0).
  Definition bc_vec (k : Z) : vec E :=
    if k =? 0 then (sopp s1, s0, s0) else if k =? 1 then (q 1 2, sopp (smul s3 (q 1 2)), s0) else (q 1 2, smul s3 (q 1 2), s0).
  (** graphene.py:179-214 *)
  Definition nn (k : Z) : list (list E) := put_block (zeros 4) 0 2 (hop_1st (ac_vec k)).
  Definition nnn (k l : Z) : list (list E) :=
    put_block (put_block (zeros 4) 0 0 (hop_2nd (ac_vec k) (bc_vec l))) 2 2 (hop_2nd (bc_vec l) (ac_vec k)).
  Definition soc_dict_ops : list (dop E) :=
    [DSet [0; 0; 0] (nn 0); DSet [-1; 0; 0] (nn 1); DSet [0; -1; 0] (nn 2);
     DSet [0; 1; 0] (nnn 0 2); DSet [1; 0; 0] (nnn 0 1); DSet [1; -1; 0] (nnn 2 1)].
End Kane.

(** The complex numbers. *)
Definition Cq (a : Z) (b : positive) : Cplx := Cre (IZR a / IZR (Zpos b))%R.
Definition Cs3 : Cplx := Cre (sqrt 3).
Definition Cis3 : Cplx := Cre (/ sqrt 3).
Definition Cii : Cplx := (0, 1)%R.
Definition Cis0 (e : Cplx) : bool := Reqb (fst e) 0 && Reqb (snd e) 0.
(** abs(e) >= 1e-5 *)
Definition Cbig (e : Cplx) : bool := Rleb (1 / 100000) (Cmod e).

(** graphene.py:147-150: the vectors are given in Angstrom
    (primitive.py:84, constants.py:4: ANG = 0.1). *)
Definition ang (v : vec R) : vec R := let '(x, y, z) := v in (x * (1 / 10), y * (1 / 10), z * (1 / 10))%R.
Definition soc_lat : mat R :=
  (ang (1 / 2 * 1 * sqrt 3, - (1 / 2) * 1, 0)%R, ang (1 / 2 * 1 * sqrt 3, 1 / 2 * 1, 0)%R, ang (0, 0, 1)%R).
(** graphene.py:125-218 make_graphene_soc *)
Definition graphene_soc (is_qsh : bool) : res (material Cplx Qc) :=
  bind (script Cconj (q_ 0 1) pc_empty (soc_orb_ops Cq is_qsh)) (fun s =>
  bind (dscript Cbig (hd_new 4) (soc_dict_ops Cq Cs3 Cis3 Cii)) (fun d =>
  match add_hopping_dict Cconj Cis0 Cbig s d with
  | (s', _, Ok _) => Ok {| m_lat := soc_lat; m_pc := s' |}
  | (_, _, Err x) => Err x
  end)).
