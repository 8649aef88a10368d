(** Model of tbplas/materials/graphene.py: make_graphene_diamond and
    make_graphene_rect.
    Decimal literals and quotients are exact; PrimitiveCell(vectors, unit=NM)
    keeps the vectors (base/constants.py:3: NM = 1.0). *)
From Coq Require Import String.
From Verif Require Import Prelude Vec Qs Cx M_hop M_pc M_super M_build M_reshape M_lat M_hopdict.
From Coq Require Import Reals.
Open Scope Z_scope.

(** Calls in sequence; the first error ends the function. *)
Section Script.
  Context {E X W L : Type} (conj : E -> E) (zero : X).
  Fixpoint script (s : pc E X W L) (os : list (op E X W L)) : res (pc E X W L) :=
    match os with
    | [] => Ok s
    | o :: r => match step conj zero s o with
                | (s', Ok _) => script s' r
                | (_, Err x) => Err x
                end
    end.
End Script.

(** A primitive cell with its lattice vectors (primitive.py:104-118). *)
Record material (E X : Type) := { m_lat : mat R; m_pc : pc E X E string }.
Arguments m_lat {E X} _.
Arguments m_pc {E X} _.

Definition q_ (a : Z) (b : positive) : Qc := Q2Qc (a # b).

Section Graphene.
  Context {E : Type} {SE : Scalar E} (conj : E -> E).
  Definition lat_a : R := (246 / 1000)%R.

  (** graphene.py:24-31: the calls on the new cell. *)
  Definition diamond_ops (t : E) : list (op E Qc E string) :=
    [OpAddOrb [q_ 0 1; q_ 0 1] s0 "C_pz"%string; OpAddOrb [q_ 1 3; q_ 1 3] s0 "C_pz"%string;
     OpAddHop [0; 0] 0 1 t; OpAddHop [1; 0] 1 0 t; OpAddHop [0; 1] 1 0 t].
  (** graphene.py:16-31 make_graphene_diamond. *)
  Definition graphene_diamond (c : R) (t : E) : res (material E Qc) :=
    bind (gen_lattice_vectors lat_a lat_a c 90 90 60) (fun v =>
    bind (script conj (q_ 0 1) pc_empty (diamond_ops t)) (fun s => Ok {| m_lat := v; m_pc := s |})).

  (** graphene.py:55-67. *)
  Definition rect_ops (t : E) : list (op E Qc E string) :=
    [OpAddOrb [q_ 0 1; q_ 0 1] s0 "C_pz"%string; OpAddOrb [q_ 0 1; q_ 2 3] s0 "C_pz"%string;
     OpAddOrb [q_ 1 2; q_ 1 6] s0 "C_pz"%string; OpAddOrb [q_ 1 2; q_ 1 2] s0 "C_pz"%string;
     OpAddHop [0; 0] 0 2 t; OpAddHop [0; 0] 2 3 t; OpAddHop [0; 0] 3 1 t;
     OpAddHop [0; 1] 1 0 t; OpAddHop [1; 0] 3 1 t; OpAddHop [1; 0] 2 0 t].
  (** graphene.py:69-71: reshape_prim_cell(make_graphene_diamond(t=t), lat_frac)
      with the default delta = 0.01 and pos_tol = 1e-5 (advanced.py:143-146).
      M_reshape works with rational numbers, so the lattice vectors handed to it
      are those of the diamond cell in their own basis; the product with the
      real vectors is taken here (advanced.py:170-172). *)
  Definition rect_frac : mat Z := ((1, 0, 0), (-1, 2, 0), (0, 0, 1)).
  Definition unit_lat : mat Qc := ((q_ 1 1, q_ 0 1, q_ 0 1), (q_ 0 1, q_ 1 1, q_ 0 1), (q_ 0 1, q_ 0 1, q_ 1 1)).
  Definition Qc2R (q : Qc) : R := Q2R (this q).
  Definition vQc2R (v : vec Qc) : vec R := let '(x, y, z) := v in (Qc2R x, Qc2R y, Qc2R z).
  Definition mmul (m n : mat R) : mat R := let '(a, b, c) := m in (vmat a n, vmat b n, vmat c n).
  Definition mQc2R (m : mat Qc) : mat R := let '(a, b, c) := m in (vQc2R a, vQc2R b, vQc2R c).
  (** graphene.py:34-71 make_graphene_rect. *)
  Definition graphene_rect (from_scratch : bool) (c : R) (t : E) : res (material E Qc) :=
    if from_scratch then
      let cc_bond := (sqrt 3 / 3 * lat_a)%R in
      bind (gen_lattice_vectors (sqrt 3 * cc_bond)%R (3 * cc_bond)%R c 90 90 90) (fun v =>
      bind (script conj (q_ 0 1) pc_empty (rect_ops t)) (fun s => Ok {| m_lat := v; m_pc := s |}))
    else
      bind (graphene_diamond 1 t) (fun m =>
      bind (reshape conj {| g_pc := m_pc m; g_lat := unit_lat; g_org := (q_ 0 1, q_ 0 1, q_ 0 1); g_ext := q_ 1 1 |}
                    (let '(a, b, c) := rect_frac in (vZ a, vZ b, vZ c)) (q_ 1 100) (q_ 1 100000))
           (fun g => Ok {| m_lat := mmul (mQc2R (g_lat g)) (m_lat m); m_pc := g_pc g |})).
End Graphene.
