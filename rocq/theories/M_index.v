(** Model of the index conversion layer of supercells:
    tbplas/cython/super.pyx:19-440 and tbplas/builder/super.py:92-447
    (class OrbitalSet). *)
From Verif Require Import Prelude M_hop.

Definition id4 := (Z * Z * Z * Z)%type.
Definition id4_eqb (a b : id4) : bool :=
  let '(a1, a2, a3, a4) := a in let '(b1, b2, b3, b4) := b in
  (a1 =? b1) && (a2 =? b2) && (a3 =? b3) && (a4 =? b4).

(** super.pyx:19-41 _id_pc2sc, over unbounded integers. *)
Definition id_pc2sc (dim : rn3) (n : Z) (t : id4) : Z :=
  let '(_, nb, nc) := dim in let '(ia, ib, ic, io) := t in
  let num_pc := ia * nb * nc + ib * nc + ic in
  num_pc * n + io.

(** The same with C arithmetic: the cell number is computed in 32-bit [int]
    (two's complement wrap) and only then widened to [long]. *)
Definition w32 (x : Z) : Z := (x + 2 ^ 31) mod 2 ^ 32 - 2 ^ 31.
Definition w64 (x : Z) : Z := (x + 2 ^ 63) mod 2 ^ 64 - 2 ^ 63.
Definition id_pc2sc_c (dim : rn3) (n : Z) (t : id4) : Z :=
  let '(_, nb, nc) := dim in let '(ia, ib, ic, io) := t in
  let num_pc := w32 (w32 (w32 (w32 (ia * nb) * nc) + w32 (ib * nc)) + ic) in
  w64 (w64 (num_pc * n) + io).

(** super.pyx:85-93: the for loop of _id_pc2sc_vac; [None] stands for
    "return -1". *)
Fixpoint lin_loop (vac : list Z) (x offset : Z) : option Z :=
  match vac with
  | [] => Some offset
  | v :: r => if v <? x then lin_loop r x (offset + 1)
              else if v =? x then None else Some offset
  end.

(** super.pyx:78-95: the offset and the result of _id_pc2sc_vac once id_sc is
    known (vac is not empty at every call site). *)
Definition vac_lin (vac : list Z) (x : Z) : Z :=
  let num_vac := Z.of_nat (length vac) in
  if x <? hd 0 vac then x
  else if last vac 0 <? x then x - num_vac
  else match lin_loop vac x 0 with None => -1 | Some o => x - o end.

(** super.pyx:46-97 _id_pc2sc_vac. *)
Definition id_pc2sc_vac (dim : rn3) (n : Z) (t : id4) (vac : list Z) : Z :=
  vac_lin vac (id_pc2sc dim n t).

(** super.pyx:131-143: the while loop of _id_pc2sc_vac2.  Result: the offset
    (-1 for a vacancy). *)
Fixpoint bis (fuel : nat) (vac : list Z) (x i0 i1 : Z) : res Z :=
  match fuel with
  | O => Err OutOfFuel
  | S f =>
    if 1 <? i1 - i0 then
      let im := i0 + (i1 - i0) / 2 in
      match nth_error vac (Z.to_nat im) with
      | None => Err IndexError
      | Some xm =>
        if xm <? x then bis f vac x im i1
        else if x <? xm then bis f vac x i0 im
        else Ok (-1)
      end
    else Ok (i0 + 1)
  end.

(** super.pyx:113-150: _id_pc2sc_vac2 once id_sc is known. *)
Definition vac_bis (vac : list Z) (x : Z) : res Z :=
  let num_vac := Z.of_nat (length vac) in
  match vac with
  | [] => Err IndexError
  | x0 :: _ =>
    let x1 := last vac 0 in
    let fin (offset : Z) := Ok (if offset =? -1 then -1 else x - offset) in
    if x <? x0 then fin 0
    else if x =? x0 then fin (-1)
    else if x =? x1 then fin (-1)
    else if x1 <? x then fin num_vac
    else match bis (length vac) vac x 0 (num_vac - 1) with
         | Ok o => fin o
         | Err e => Err e
         end
  end.

(** super.pyx:104-150 _id_pc2sc_vac2. *)
Definition id_pc2sc_vac2 (dim : rn3) (n : Z) (t : id4) (vac : list Z) : res Z :=
  vac_bis vac (id_pc2sc dim n t).

(** super.pyx:155-165 id_pc2sc (dispatcher). *)
Definition id_pc2sc_any (dim : rn3) (n : Z) (t : id4) (vac : list Z) : res Z :=
  match vac with
  | [] => Ok (id_pc2sc dim n t)
  | _ => id_pc2sc_vac2 dim n t vac
  end.

(** super.pyx:353-378 build_vac_id_sc. *)
Definition build_vac_id_sc (dim : rn3) (n : Z) (vac_pc : list id4) : list Z :=
  map (id_pc2sc dim n) vac_pc.

(** range(k) of a C int; empty for k <= 0. *)
Definition crange (k : Z) : list Z := zrange (Z.to_nat k).

(** super.pyx:415-422 (and 426-431): the four nested loops. *)
Definition all_ids (dim : rn3) (n : Z) : list id4 :=
  let '(na, nb, nc) := dim in
  flat_map (fun ia => flat_map (fun ib => flat_map (fun ic =>
    map (fun io => (ia, ib, ic, io)) (crange n)) (crange nc)) (crange nb)) (crange na).

(** super.pyx:432-433: the test "!= -1". *)
Definition not_vac (dim : rn3) (n : Z) (vac : list Z) (t : id4) : bool :=
  match id_pc2sc_vac2 dim n t vac with
  | Ok k => negb (k =? -1)
  | Err _ => true
  end.

(** super.pyx:383-440 build_orb_id_pc. *)
Definition build_orb_id_pc (dim : rn3) (n : Z) (vac : list Z) : list id4 :=
  match vac with
  | [] => all_ids dim n
  | _ => filter (not_vac dim n vac) (all_ids dim n)
  end.

(** np.argsort followed by indexing, super.py:316-317: a stable sort. *)
Fixpoint ins (x : Z) (l : list Z) : list Z :=
  match l with
  | [] => [x]
  | y :: r => if x <=? y then x :: l else y :: ins x r
  end.
Definition zsort (l : list Z) : list Z := fold_right ins [] l.

(** ** class OrbitalSet *)
Record oset := { o_dim : rn3; o_n : Z; o_vacs : list id4 }.

(** super.py:201-232 _check_id_pc for a tuple. *)
Definition check_id_pc (s : oset) (id : list Z) : res id4 :=
  match id with
  | [ia; ib; ic; io] =>
    let '(na, nb, nc) := o_dim s in
    if negb ((0 <=? ia) && (ia <? na)) then Err IDPCIndexError
    else if negb ((0 <=? ib) && (ib <? nb)) then Err IDPCIndexError
    else if negb ((0 <=? ic) && (ic <? nc)) then Err IDPCIndexError
    else if negb ((0 <=? io) && (io <? o_n s)) then Err IDPCIndexError
    else Ok (ia, ib, ic, io)
  | _ => Err IDPCLenError
  end.

Definition id4_mem (t : id4) (l : list id4) : bool := existsb (id4_eqb t) l.

(** super.py:250-266 add_vacancies (the set is a duplicate-free list; vacancies
    before a bad one stay). *)
Fixpoint add_vacancies (s : oset) (vs : list (list Z)) : oset * res unit :=
  match vs with
  | [] => (s, Ok tt)
  | v :: r =>
    match check_id_pc s v with
    | Err x => (s, Err x)
    | Ok t => add_vacancies {| o_dim := o_dim s; o_n := o_n s;
                o_vacs := if id4_mem t (o_vacs s) then o_vacs s else o_vacs s ++ [t] |} r
    end
  end.

(** super.py:268-282 set_vacancies; [None] is the default argument, which
    cannot be iterated over. *)
Definition set_vacancies (s : oset) (vs : option (list (list Z))) : oset * res unit :=
  let s0 := {| o_dim := o_dim s; o_n := o_n s; o_vacs := [] |} in
  match vs with
  | None => (s0, Err TypeError)
  | Some l => add_vacancies s0 l
  end.

(** super.py:284-327 sync_array: the two arrays as functions of the current
    vacancies (the hash test that may skip the computation is modelled in
    M_sync). sorted() before the conversion does not influence the result of
    the sort after it. *)
Definition o_vac_id_sc (s : oset) : list Z :=
  zsort (build_vac_id_sc (o_dim s) (o_n s) (o_vacs s)).
Definition o_orb_id_pc (s : oset) : list id4 :=
  build_orb_id_pc (o_dim s) (o_n s) (o_vac_id_sc s).

(** super.py:438-447 num_orb_sc; 449-456 num_vac. *)
Definition num_vac (s : oset) : Z := Z.of_nat (length (o_vacs s)).
Definition num_orb_sc (s : oset) : Z :=
  let '(na, nb, nc) := o_dim s in o_n s * (na * nb * nc) - num_vac s.

(** super.py:329-347 orb_id_sc2pc (numpy indexing). *)
Definition orb_id_sc2pc (s : oset) (k : Z) : res id4 :=
  match py_nth (o_orb_id_pc s) k with
  | Some t => Ok t
  | None => Err IDSCIndexError
  end.

(** super.py:349-374 orb_id_pc2sc. *)
Definition orb_id_pc2sc (s : oset) (id : list Z) : res Z :=
  match check_id_pc s id with
  | Err x => Err x
  | Ok t => match id_pc2sc_any (o_dim s) (o_n s) t (o_vac_id_sc s) with
            | Err x => Err x
            | Ok k => if k =? -1 then Err IDPCVacError else Ok k
            end
  end.

(** super.pyx:170-200 check_id_sc_array and super.py:376-398
    orb_id_sc2pc_array: the first bad index makes the call fail. *)
Definition orb_id_sc2pc_array (s : oset) (ks : list Z) : res (list id4) :=
  match find (fun k => negb ((0 <=? k) && (k <? num_orb_sc s))) ks with
  | Some _ => Err IDSCIndexError
  | None => Ok (map (fun k => nth (Z.to_nat k) (o_orb_id_pc s) (0, 0, 0, 0)) ks)
  end.

(** super.pyx:205-267 check_id_pc_array: error class of the first bad row
    (the reported component is not modelled). *)
Fixpoint check_id_pc_array (dim : rn3) (n : Z) (ids : list id4) (vac : list Z)
  : res unit :=
  match ids with
  | [] => Ok tt
  | (ia, ib, ic, io) :: r =>
    let '(na, nb, nc) := dim in
    if negb ((0 <=? ia) && (ia <? na)) || negb ((0 <=? ib) && (ib <? nb))
       || negb ((0 <=? ic) && (ic <? nc)) || negb ((0 <=? io) && (io <? n))
    then Err IDPCIndexError
    else match vac with
         | [] => check_id_pc_array dim n r vac
         | _ => match id_pc2sc_vac2 dim n (ia, ib, ic, io) vac with
                | Err x => Err x
                | Ok k => if k =? -1 then Err IDPCVacError
                          else check_id_pc_array dim n r vac
                end
         end
  end.

(** super.pyx:308-345 id_pc2sc_array. *)
Fixpoint id_pc2sc_array (dim : rn3) (n : Z) (ids : list id4) (vac : list Z)
  : res (list Z) :=
  match ids with
  | [] => Ok []
  | t :: r => match id_pc2sc_any dim n t vac, id_pc2sc_array dim n r vac with
              | Ok k, Ok l => Ok (k :: l)
              | Err x, _ => Err x
              | _, Err x => Err x
              end
  end.

(** super.py:400-427 orb_id_pc2sc_array. *)
Definition orb_id_pc2sc_array (s : oset) (ids : list id4) : res (list Z) :=
  match check_id_pc_array (o_dim s) (o_n s) ids (o_vac_id_sc s) with
  | Err x => Err x
  | Ok _ => id_pc2sc_array (o_dim s) (o_n s) ids (o_vac_id_sc s)
  end.

(** ** Wrapping, super.pyx:446-537 *)

(** super.pyx:489-490 and 491-492: the two while loops. *)
Fixpoint wrap_up (fuel : nat) (j n : Z) : res Z :=
  match fuel with
  | O => Err OutOfFuel
  | S f => if j <? 0 then wrap_up f (j + n) n else Ok j
  end.
Fixpoint wrap_down (fuel : nat) (j n : Z) : res Z :=
  match fuel with
  | O => Err OutOfFuel
  | S f => if n <=? j then wrap_down f (j - n) n else Ok j
  end.

(** super.pyx:446-493 _wrap_pbc. *)
Definition wrap_fuel (fuel : nat) (j n : Z) (pbc : bool) : res Z :=
  if pbc then bind (wrap_up fuel j n) (fun j' => wrap_down fuel j' n)
  else if (j <? 0) || (n <=? j) then Ok (-1) else Ok j.

(** super.pyx:518-528 and 531-536: the two loops of _fast_div. *)
Fixpoint div_up (fuel : nat) (j n result bound : Z) : res Z :=
  match fuel with
  | O => Err OutOfFuel
  | S f => if j <? bound then Ok (result - 1)
           else if j =? bound then Ok result
           else div_up f j n (result + 1) (bound + n)
  end.
Fixpoint div_down (fuel : nat) (j n result bound : Z) : res Z :=
  match fuel with
  | O => Err OutOfFuel
  | S f => if bound <=? j then Ok result
           else div_down f j n (result - 1) (bound - n)
  end.

(** super.pyx:496-537 _fast_div. *)
Definition div_fuel (fuel : nat) (j n : Z) : res Z :=
  if (0 <=? j) && (j <? n) then Ok 0
  else if n <=? j then div_up fuel j n 1 n
  else div_down fuel j n (-1) (- n).

(** Fuel that always suffices when n > 0 (theorem C10). *)
Definition enough (j : Z) : nat := S (S (Z.to_nat (Z.abs j))).
Definition wrap_pbc (j n : Z) (pbc : bool) : res Z := wrap_fuel (enough j) j n pbc.
Definition fast_div (j n : Z) : res Z := div_fuel (enough j) j n.
