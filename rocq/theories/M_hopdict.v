(** Model of HopDict (tbplas/builder/base.py:492-630) and of
    PrimitiveCell.add_hopping_dict (primitive.py:384-402).  Arrays are lists of
    rows. *)
From Verif Require Import Prelude Vec M_hop M_pc M_super.

Section HopDict.
  (** is0: x = 0; big: abs(x) >= 1e-5. *)
  Context {E X W L : Type} {SE : Scalar E} (conj : E -> E) (is0 big : E -> bool).

  (** base.py:504: the values are arrays or coo_matrix (its row, col, data). *)
  Inductive stored := Dense (m : list (list E)) | Coo (l : list (Z * Z * E)).
  (** base.py:511-517 __init__; _mat_shape is (_num_orb, _num_orb). *)
  Record hd := { d_num : Z; d_hops : list (rn3 * stored) }.
  Definition hd_new (n : Z) : hd := {| d_num := n; d_hops := [] |}.
  (** base.py:616-620 the setter of num_orb. *)
  Definition hd_resize (d : hd) (n : Z) : hd := {| d_num := n; d_hops := d_hops d |}.
  Definition hd_put (d : hd) (r : rn3) (m : stored) : hd := {| d_num := d_num d; d_hops := aset rn_eqb (d_hops d) r m |}.

  (** shape of an array *)
  Definition shape_is (n : Z) (m : list (list E)) : bool :=
    (Z.of_nat (length m) =? n) && forallb (fun row => Z.of_nat (length row) =? n) m.
  (** numpy.diag of an array *)
  Definition diag (m : list (list E)) : list E :=
    flat_map (fun q : Z * list E => match nth_error (snd q) (Z.to_nat (fst q)) with Some x => [x] | None => [] end) (enum m).
  (** base.py:582-595 _check_diag.  numpy.diag refuses a coo_matrix (an object
      of dimension 0 for numpy) with ValueError. *)
  Definition check_diag (d : hd) : res unit :=
    match aget rn_eqb (d_hops d) (0, 0, 0) with
    | None => Ok tt
    | Some (Dense m) => if existsb big (diag m) then Err PCHopDiagonalError else Ok tt
    | Some (Coo _) => Err ValueError
    end.
  (** base.py:519-548 __setitem__: the matrix is stored before the check. *)
  Definition hd_set (d : hd) (rn : list Z) (m : list (list E)) : hd * res unit :=
    match check_rn rn with
    | None => (d, Err CellIndexLenError)
    | Some r =>
      if negb (shape_is (d_num d) m) then (d, Err ValueError) else
      let d' := hd_put d r (Dense m) in
      (d', if rn_eqb r (0, 0, 0) then check_diag d' else Ok tt)
    end.
  Definition zeros (n : Z) : list (list E) := repeat (repeat s0 (Z.to_nat n)) (Z.to_nat n).
  (** base.py:550-566 __getitem__. *)
  Definition hd_get (d : hd) (rn : list Z) : hd * res stored :=
    match check_rn rn with
    | None => (d, Err CellIndexLenError)
    | Some r => match aget rn_eqb (d_hops d) r with
                | Some m => (d, Ok m)
                | None => (hd_put d r (Dense (zeros (d_num d))), Ok (Dense (zeros (d_num d))))
                end
    end.
  (** d[rn][i, j] = e: item assignment on the returned array (the array of the
      dictionary itself); a coo_matrix has no item assignment. *)
  Definition hd_item (d : hd) (rn : list Z) (i j : Z) (e : E) : hd * res unit :=
    match check_rn rn, hd_get d rn with
    | Some r, (d', Ok (Dense m)) =>
      match py_norm (length m) i with
      | None => (d', Err IndexError)
      | Some i' => match nth_error m i' with
                   | None => (d', Err IndexError)
                   | Some row => match py_norm (length row) j with
                                 | None => (d', Err IndexError)
                                 | Some j' => (hd_put d' r (Dense (set_nth i' m (set_nth j' row e))), Ok tt)
                                 end
                   end
      end
    | Some _, (d', Ok (Coo _)) => (d', Err TypeError)
    | _, (d', Err x) => (d', Err x)
    | None, (d', _) => (d', Err CellIndexLenError)
    end.

  (** scipy's coo_matrix of an array: the non-zero elements, by rows. *)
  Definition nonzeros (m : list (list E)) : list (Z * Z * E) :=
    flat_map (fun q : Z * list E => flat_map (fun c : Z * E => if is0 (snd c) then [] else [(fst q, fst c, snd c)]) (enum (snd q))) (enum m).
  Definition sparse (m : stored) : list (Z * Z * E) := match m with Dense m => nonzeros m | Coo l => l end.
  (** base.py:597-609 to_spare. *)
  Definition to_spare (d : hd) : hd * res unit :=
    match check_diag d with
    | Err x => (d, Err x)
    | Ok _ => ({| d_num := d_num d; d_hops := map (fun q : rn3 * stored => (fst q, Coo (sparse (snd q)))) (d_hops d) |}, Ok tt)
    end.
  (** primitive.py:397-402: the terms added before an error stay. *)
  Fixpoint add_terms (s : pc E X W L) (l : list (rn3 * (Z * Z * E))) : pc E X W L * res unit :=
    match l with
    | [] => (s, Ok tt)
    | (r, (i, j, e)) :: rest =>
      match add_hopping conj s [fst (fst r); snd (fst r); snd r] i j e with
      | (s', Ok _) => add_terms s' rest
      | (s', Err x) => (s', Err x)
      end
    end.
  Definition terms (d : hd) : list (rn3 * (Z * Z * E)) :=
    flat_map (fun q : rn3 * stored => map (fun t => (fst q, t)) (sparse (snd q))) (d_hops d).
  (** primitive.py:384-402 add_hopping_dict: the cell and the dictionary after
      the call. *)
  Definition add_hopping_dict (s : pc E X W L) (d : hd) : pc E X W L * hd * res unit :=
    if locked s then (s, d, Err LockError) else
    match to_spare d with
    | (d', Err x) => (s, d', Err x)
    | (d', Ok _) => let q := add_terms s (terms d') in (fst q, d', snd q)
    end.
End HopDict.

(** Calls that fill a dictionary before it is applied. *)
Section Fill.
  Context {E : Type} {SE : Scalar E} (big : E -> bool).
  Inductive dop := DSet (rn : list Z) (m : list (list E)) | DItem (rn : list Z) (i j : Z) (e : E).
  Definition dstep (d : hd) (o : dop) : hd * res unit :=
    match o with DSet rn m => hd_set big d rn m | DItem rn i j e => hd_item d rn i j e end.
  Fixpoint drun (d : hd) (os : list dop) : hd * list (res unit) :=
    match os with
    | [] => (d, [])
    | o :: r => let '(d1, a) := dstep d o in let '(d2, l) := drun d1 r in (d2, a :: l)
    end.
End Fill.
Arguments hd : clear implicits.
Arguments stored : clear implicits.
Arguments dop : clear implicits.
