(** Model of the readers of adapter/wannier90.py: read_lat_vec, read_orb_pos,
    read_hop, read_wsvec and wan2pc from the text of the files.  A file is the
    list of its lines; a line is a string of ASCII characters with or without
    its line break.  Numbers are read exactly; the spellings inf, nan and digits
    grouped by underscores are not read. *)
From Coq Require Import Reals String Ascii.
From Verif Require Import Prelude Vec Cx M_super M_hop M_pc M_skcell M_lat M_wan.
Local Open Scope Z_scope.
Local Open Scope list_scope.

(** str.isspace for ASCII: what split and strip remove *)
Definition space (c : ascii) : bool :=
  let n := nat_of_ascii c in ((9 <=? n) && (n <=? 13) || (28 <=? n) && (n <=? 32))%nat.
(** str.split() *)
Fixpoint split (s : string) : list string :=
  match s with
  | EmptyString => []
  | String c r =>
    if space c then split r else
    match r with
    | EmptyString => [String c EmptyString]
    | String d _ =>
      if space d then String c EmptyString :: split r else
      match split r with w :: l => String c w :: l | [] => [String c EmptyString] end
    end
  end.
(** str.lstrip(), str.rstrip() *)
Fixpoint lstrip (s : string) : string :=
  match s with String c r => if space c then lstrip r else s | EmptyString => s end.
Fixpoint rstrip (s : string) : string :=
  match s with
  | EmptyString => EmptyString
  | String c r => match rstrip r with EmptyString => if space c then EmptyString else String c EmptyString | t => String c t end
  end.
Definition strip (s : string) : string := rstrip (lstrip s).

Definition digit (c : ascii) : option Z :=
  let n := nat_of_ascii c in if ((48 <=? n) && (n <=? 57))%nat then Some (Z.of_nat n - 48) else None.
Fixpoint digits_loop (acc : Z) (s : string) : res Z :=
  match s with
  | EmptyString => Ok acc
  | String c r => match digit c with Some d => digits_loop (10 * acc + d) r | None => Err ValueError end
  end.
Definition digits (s : string) : res Z := match s with EmptyString => Err ValueError | _ => digits_loop 0 s end.
Definition signed {A} (neg : A -> A) (f : string -> res A) (s : string) : res A :=
  match s with
  | String "-" r => bind (f r) (fun x => Ok (neg x))
  | String "+" r => f r
  | _ => f s
  end%char.
(** int(s) *)
Definition int_of (s : string) : res Z := signed Z.opp digits (strip s).

(** the number m * 10^e *)
Definition dec10 (m e : Z) : R := (IZR m * powerRZ 10 e)%R.
(** the longest prefix made of digits: its digits as a number, their count, the
    rest *)
Fixpoint span_digits (acc : Z) (n : nat) (s : string) : Z * nat * string :=
  match s with
  | String c r => match digit c with Some d => span_digits (10 * acc + d) (S n) r | None => (acc, n, s) end
  | EmptyString => (acc, n, s)
  end.
Definition exponent (s : string) : res Z :=
  match s with
  | EmptyString => Ok 0
  | String c r => if ((c =? "e") || (c =? "E"))%char then signed Z.opp digits r else Err ValueError
  end.
Definition float_abs (s : string) : res (Z * Z) :=
  let '(ip, n, r) := span_digits 0 0 s in
  let '(m, k, t) := match r with String "." r' => span_digits ip 0 r' | _ => (ip, O, r) end%char in
  if (n + k =? 0)%nat then Err ValueError else
  bind (exponent t) (fun e => Ok (m, e - Z.of_nat k)).
(** float(s) *)
Definition float_of (s : string) : res R :=
  bind (signed (fun p => (- fst p, snd p)) float_abs (strip s)) (fun p => Ok (dec10 (fst p) (snd p))).

(** data[k] *)
Definition field (data : list string) (k : nat) : res string :=
  match nth_error data k with Some w => Ok w | None => Err IndexError end.
Definition int_field (data : list string) (k : nat) : res Z := bind (field data k) int_of.

(** constants.py:5 *)
Definition BOHR2ANG : R := dec 529177210671212 15.
(** numpy.array of rows with different lengths raises ValueError *)
Definition rect (rows : list (list R)) : bool :=
  match rows with [] => true | r :: l => forallb (fun x => Nat.eqb (List.length x) (List.length r)) l end.
Definition array2 (rows : list (list R)) : res (list (list R)) := if rect rows then Ok rows else Err ValueError.
(** [float(x) for x in line.split()] *)
Definition floats (data : list string) : res (list R) := mapM float_of data.

(** wannier90.py:33-38 one turn of the loop over the lines *)
Definition locate (st : nat * nat) (q : nat * string) : nat * nat :=
  let '(nl, line) := q in
  if prefix "begin unit_cell_cart" (lstrip line) then (nl, snd st)
  else if prefix "end unit_cell_cart" (lstrip line) then (fst st, nl) else st.
(** 39 win_content[nl_start:nl_end+1] *)
Definition lat_block (win : list string) : list string :=
  let '(a, b) := fold_left locate (combine (seq 0 (List.length win)) win) (O, O) in
  firstn (b + 1 - a) (skipn a win).
(** 42-47 the units and the rows *)
Definition lat_raw (blk : list string) : res (string * list string) :=
  if (List.length blk =? 6)%nat then
    match nth_error blk 1 with
    | Some l => Ok (strip l, removelast (skipn 2 blk))
    | None => Err IndexError
    end
  else Ok ("Ang"%string, removelast (skipn 1 blk)).
(** 21-58 read_lat_vec *)
Definition read_lat_vec (win : list string) : res (list (list R)) :=
  bind (lat_raw (lat_block win)) (fun '(units, raw) =>
  bind (mapM (fun line => floats (split line)) raw) (fun rows =>
  bind (array2 rows) (fun lat =>
  if existsb (String.eqb units) ["Ang"; "ang"]%string then Ok lat
  else if existsb (String.eqb units) ["Bohr"; "bohr"]%string then Ok (map (map (fun x => x * BOHR2ANG)%R) lat)
  else Err ValueError))).

(** 61-80 read_orb_pos *)
Definition centre (line : string) : res (list (list R)) :=
  let data := split line in
  bind (field data 0) (fun w => if String.eqb w "X" then bind (floats (tl data)) (fun x => Ok [x]) else Ok []).
Definition read_orb_pos (xyz : list string) : res (list (list R)) :=
  bind (mapM centre (skipn 2 xyz)) (fun l => array2 (concat l)).

(** 95-103 one line of the hopping file *)
Definition hop_line (line : string) : res (rn5 * Cplx) :=
  let data := split line in
  bind (int_field data 0) (fun a => bind (int_field data 1) (fun b => bind (int_field data 2) (fun c =>
  bind (int_field data 3) (fun i => bind (int_field data 4) (fun j =>
  bind (bind (field data 5) float_of) (fun x => bind (bind (field data 6) float_of) (fun y =>
  Ok (((a, b, c), (i - 1, j - 1)), ((x, y) : Cplx))))))))).
(** Python l[k:] *)
Definition py_from {A} (l : list A) (k : Z) : list A :=
  skipn (Z.to_nat (if k <? 0 then Z.max 0 (k + Z.of_nat (List.length l)) else k)) l.
(** numpy.ceil(n / 15) *)
Definition ceil15 (n : Z) : Z := - ((- n) / 15).
(** 83-104 read_hop *)
Definition read_hop_text (hr : list string) : res (list rn5 * list Cplx) :=
  bind (field hr 2) (fun l => bind (int_of l) (fun nl_hopping =>
  bind (mapM hop_line (py_from hr (3 + ceil15 nl_hopping))) (fun r => Ok (map fst r, map snd r)))).

(** 127-132 the correction vectors of one block; next() on an exhausted file
    raises StopIteration *)
Fixpoint read_vecs (n : nat) (ls : list string) : res (list rn3 * list string) :=
  match n with
  | O => Ok ([], ls)
  | S n' =>
    match ls with
    | [] => Err StopIteration
    | line :: r =>
      let data := split line in
      bind (int_field data 0) (fun a => bind (int_field data 1) (fun b => bind (int_field data 2) (fun c =>
      bind (read_vecs n' r) (fun '(vs, r') => Ok ((a, b, c) :: vs, r')))))
    end
  end.
(** 119-133 the loop over the blocks *)
Fixpoint read_blocks (fuel : nat) (ls : list string) (d : list (rn5 * list rn3)) : res (list (rn5 * list rn3)) :=
  match ls with
  | [] => Ok d
  | first :: r =>
    match fuel with
    | O => Err OutOfFuel
    | S fuel' =>
      let data := split first in
      bind (int_field data 0) (fun a => bind (int_field data 1) (fun b => bind (int_field data 2) (fun c =>
      bind (int_field data 3) (fun i => bind (int_field data 4) (fun j =>
      match r with
      | [] => Err StopIteration
      | num :: r' =>
        bind (int_of num) (fun n =>
        bind (read_vecs (Z.to_nat n) r') (fun '(vs, r'') =>
        read_blocks fuel' r'' (aset rn5_eqb d ((a, b, c), (i - 1, j - 1)) vs)))
      end)))))
    end
  end.
(** 107-135 read_wsvec *)
Definition read_wsvec_text (f : list string) : res (list (rn5 * list rn3)) :=
  match f with [] => Err StopIteration | _ :: r => read_blocks (List.length r) r [] end.

(** The files of one calculation; None: the file does not exist. *)
Record w90 := { f_win : option (list string); f_xyz : option (list string); f_hr : option (list string); f_ws : option (list string) }.
Definition opened (f : option (list string)) : res (list string) := match f with Some l => Ok l | None => Err FileNotFoundError end.
(** numpy: inverse of an array that is not 3x3, or a row that is not of length
    3, raises ValueError *)
Definition vec3 (l : list R) : res V := match l with [x; y; z] => Ok (x, y, z) | _ => Err ValueError end.
Definition mat3 (l : list (list R)) : res M :=
  bind (mapM vec3 l) (fun v => match v with [a; b; c] => Ok (a, b, c) | _ => Err ValueError end).
Definition unvec (v : V) : list R := let '(x, y, z) := v in [x; y; z].

(** 168-211 wan2pc: the lattice vectors in Angstrom and the cell *)
Definition wan2pc_text {W L : Type} (w0 : W) (l0 : L) (small : Cplx -> bool) (over : Cplx -> nat -> Cplx) (real : Cplx -> W)
  (f : w90) (correct_hop : bool) : res (M * pc Cplx R W L) :=
  bind (bind (opened (f_win f)) read_lat_vec) (fun lat_vec =>
  bind (bind (opened (f_xyz f)) read_orb_pos) (fun orb_pos =>
  bind (bind (opened (f_hr f)) read_hop_text) (fun st =>
  bind (mat3 lat_vec) (fun m =>
  bind (mapM vec3 orb_pos) (fun carts =>
  bind (cart2frac m carts (0, 0, 0)%R) (fun fracs =>
  bind (if correct_hop then bind (bind (opened (f_ws f)) read_wsvec_text) (fun d => apply_wsvec over d st) else Ok st) (fun st =>
  match add_all 0%R w0 l0 pc_empty (map unvec fracs) with
  | (_, Err x) => Err x
  | (s, Ok _) =>
    match add_rows Cconj 0%R small real s (fst st) (snd st) with
    | (s', Ok _) => Ok (m, s')
    | (_, Err x) => Err x
    end
  end))))))).
