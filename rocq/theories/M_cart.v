(** Model of Cartesian positions of orbitals and of hopping distances of
    PrimitiveCell (builder/primitive.py:231-247, 286-310, 1056-1114).  Reals
    for floats.  The numpy arrays that the properties read follow the lists
    of orbitals and hoppings (M_sync). *)
From Verif Require Import Prelude Vec Cx M_super M_sample M_hop M_pc M_index M_build M_lat.
From Coq Require Import Reals.
Local Open Scope R_scope.

(** base/constants.py:3-4 *)
Definition unit_NM : R := 1.
Definition unit_ANG : R := 1 / 10.

Section Cart.
  Context {E W L : Type}.
  Notation cell := (gcell E R W L).

  Definition with_pc (c : cell) (s : pc E R W L) : cell :=
    {| g_pc := s; g_lat := g_lat c; g_org := g_org c; g_ext := g_ext c |}.
  (** np.array([position]) * unit, then cart2frac(...)[0] with lattice and
      origin of the cell: 244-246, 308-309. *)
  Definition to_frac (c : cell) (q : V) (unit : R) : res (list R) :=
    bind (cart2frac (g_lat c) [vscale unit q] (g_org c)) (fun xs =>
    bind (rd xs 0) (fun x => let '(a, b, d) := x in Ok [a; b; d])).

  (** 231-247 add_orbital_cart *)
  Definition add_orbital_cart (c : cell) (p : list R) (unit : R) (w : W) (l : L) : cell * res (out E R W L) :=
    if locked (g_pc c) then (c, Err LockError) else
    match check_pos 0 p with
    | None => (c, Err OrbPositionLenError)
    | Some q =>
        match to_frac c q unit with
        | Err x => (c, Err x)
        | Ok f => let r := add_orbital 0 (g_pc c) f w l in (with_pc c (fst r), snd r)
        end
    end.

  (** 286-310 set_orbital_cart *)
  Definition set_orbital_cart (c : cell) (k : Z) (p : option (list R)) (unit : R) (w : option W) (l : option L)
    : cell * res (out E R W L) :=
    if locked (g_pc c) then (c, Err LockError) else
    match p with
    | None => let r := set_orbital 0 (g_pc c) k None w l in (with_pc c (fst r), snd r)
    | Some p =>
        match check_pos 0 p with
        | None => (c, Err OrbPositionLenError)
        | Some q =>
            match to_frac c q unit with
            | Err x => (c, Err x)
            | Ok f => let r := set_orbital 0 (g_pc c) k (Some f) w l in (with_pc c (fst r), snd r)
            end
        end
    end.

  (** 1068-1077 orb_pos_ang *)
  Definition orb_pos_ang (c : cell) : list V := map (vscale 10) (orb_pos_nm c).

  (** 1079-1093 dr, 1095-1103 dr_nm, 1105-1113 dr_ang; one row for each term
      of hop_ind. *)
  Definition dr (c : cell) : res (list V) :=
    mapM (fun t : rn3 * pair2 * E =>
      let '(rn, (i, j), _) := t in
      bind (rd (orbs (g_pc c)) j) (fun oj => bind (rd (orbs (g_pc c)) i) (fun oi =>
        Ok (vsub (vadd (position oj) (vZ rn)) (position oi))))) (flatten (hop (g_pc c))).
  Definition dr_nm (c : cell) : res (list V) := bind (dr c) (fun d => frac2cart (g_lat c) (Array d) (0, 0, 0)).
  Definition dr_ang (c : cell) : res (list V) := bind (dr_nm c) (fun d => Ok (map (vscale 10) d)).
End Cart.
