(** Model of the spin-orbit classes of tbplas/builder/advanced.py: AtomicOrbital,
    SOC, SOCTable and SOCTable2.  Coefficients are pairs of reals, literals are
    their exact decimal values. *)
From Coq Require Import Reals String.
From Verif Require Import Prelude Vec Cx.
Local Open Scope R_scope.
Local Open Scope string_scope.

(** advanced.py:987-997  AtomicOrbital._coeff, a defaultdict(complex) keyed (l, m) *)
Definition qn : Type := (Z * Z)%type.
Definition qn_eqb (a b : qn) : bool := (Z.eqb (fst a) (fst b) && Z.eqb (snd a) (snd b))%bool.
Definition coeffs : Type := list (qn * Cplx).
(** advanced.py:1020-1031  _check_qn (true when it does not raise) *)
Definition check_qn (k : qn) : bool := (Z.leb (- fst k) (snd k) && Z.leb (snd k) (fst k))%bool.
(** advanced.py:999-1008  __setitem__ *)
Definition orb_set (c : coeffs) (k : qn) (v : Cplx) : res coeffs := if check_qn k then Ok (aset qn_eqb c k v) else Err ValueError.
(** advanced.py:1010-1018  __getitem__: a missing key is inserted with value 0 *)
Definition orb_get (c : coeffs) (k : qn) : res (Cplx * coeffs) :=
  if check_qn k then match aget qn_eqb c k with Some v => Ok (v, c) | None => Ok (Cre 0, aset qn_eqb c k (Cre 0)) end else Err ValueError.
(** advanced.py:1033-1054  l_plus *)
Definition l_plus (c : coeffs) : coeffs :=
  fold_left (fun new kv => let '((l, m), v) := kv in
    if check_qn (l, m + 1)%Z then aset qn_eqb new (l, m + 1)%Z (Cmul v (Cre (sqrt (IZR ((l - m) * (l + m + 1)))))) else new) c [].
(** advanced.py:1056-1077  l_minus *)
Definition l_minus (c : coeffs) : coeffs :=
  fold_left (fun new kv => let '((l, m), v) := kv in
    if check_qn (l, m - 1)%Z then aset qn_eqb new (l, m - 1)%Z (Cmul v (Cre (sqrt (IZR ((l + m) * (l - m + 1)))))) else new) c [].
(** advanced.py:1079-1091  l_z *)
Definition l_z (c : coeffs) : coeffs := map (fun kv => (fst kv, Cmul (snd kv) (Cre (IZR (snd (fst kv)))))) c.
(** advanced.py:1093-1103  product (with the new state of the ket) *)
Fixpoint product_from (acc : Cplx) (bra ket : coeffs) : res (Cplx * coeffs) :=
  match bra with
  | [] => Ok (acc, ket)
  | (k, v) :: r => bind (orb_get ket k) (fun g => product_from (Cadd acc (Cmul (Cconj v) (fst g))) r (snd g))
  end.
Definition product (bra ket : coeffs) : res (Cplx * coeffs) := product_from (Cre 0) bra ket.
(** advanced.py:1105-1123  mtxel (works on a deep copy of the ket) *)
Definition mtxel (bra ket : coeffs) (op : string) : res Cplx :=
  bind (if op =? "l+" then Ok (l_plus ket) else if op =? "l-" then Ok (l_minus ket) else if op =? "lz" then Ok (l_z ket) else Err ValueError)
    (fun k => bind (product bra k) (fun g => Ok (fst g))).

(** advanced.py:1141-1143, 1310-1312, 1386-1388  legal labels *)
Definition is_label (l : string) : bool :=
  existsb (fun s => l =? s) ["s"; "px"; "py"; "pz"; "dxy"; "dx2-y2"; "dyz"; "dzx"; "dz2"]%list.
Definition is_spin (s : string) : bool := existsb (fun t => s =? t) ["up"; "down"]%list.
(** advanced.py:1144-1171  the basis; the loop over a set of labels only creates
    empty orbitals *)
Definition orb2 (k1 : qn) (v1 : Cplx) (k2 : qn) (v2 : Cplx) : res coeffs := bind (orb_set [] k1 v1) (fun c => orb_set c k2 v2).
Definition orbital_basis (label : string) : res coeffs :=
  let c := Cre (sqrt (1 / 2)) in
  let ci := (0, sqrt (1 / 2)) in
  if label =? "s" then orb_set [] (0, 0)%Z (Cre 1)
  else if label =? "py" then orb2 (1, -1)%Z ci (1, 1)%Z ci
  else if label =? "pz" then orb_set [] (1, 0)%Z (Cre 1)
  else if label =? "px" then orb2 (1, -1)%Z c (1, 1)%Z (Copp c)
  else if label =? "dxy" then orb2 (2, -2)%Z ci (2, 2)%Z (Copp ci)
  else if label =? "dyz" then orb2 (2, -1)%Z ci (2, 1)%Z ci
  else if label =? "dz2" then orb_set [] (2, 0)%Z (Cre 1)
  else if label =? "dzx" then orb2 (2, -1)%Z c (2, 1)%Z (Copp c)
  else if label =? "dx2-y2" then orb2 (2, -2)%Z c (2, 2)%Z c
  else Err KeyError.
(** advanced.py:1173-1203  _eval_soc *)
Definition eval_soc (bra ket : coeffs) (spin_bra spin_ket : string) : res Cplx :=
  let scale a t := bind t (fun v => Ok (Cmul (Cre a) v)) in
  if (spin_bra =? "up") && (spin_ket =? "up") then scale (1 / 2) (mtxel bra ket "lz")
  else if (spin_bra =? "up") && (spin_ket =? "down") then scale (1 / 2) (mtxel bra ket "l-")
  else if (spin_bra =? "down") && (spin_ket =? "up") then scale (1 / 2) (mtxel bra ket "l+")
  else scale (- (1 / 2)) (mtxel bra ket "lz").
(** advanced.py:1227-1250  SOC.eval *)
Definition check_soc {A} (label_i spin_i label_j spin_j : string) (t : res A) : res A :=
  if is_label label_i && is_label label_j then if is_spin spin_i && is_spin spin_j then t else Err ValueError else Err ValueError.
Definition soc_eval (label_i spin_i label_j spin_j : string) : res Cplx :=
  check_soc label_i spin_i label_j spin_j
    (bind (orbital_basis label_i) (fun bra => bind (orbital_basis label_j) (fun ket => eval_soc bra ket spin_i spin_j))).

(** advanced.py:1271-1309  SOCTable: the tables, with the literals as exact decimals *)
Definition pair_eqb (a b : string * string) : bool := (fst a =? fst b) && (snd a =? snd b).
Definition half_dec : R := 5000000000000001 / 10000000000000000.
Definition one_dec : R := 10000000000000002 / 10000000000000000.
Definition root_dec : R := 8660254037844386 / 10000000000000000.
Definition re (x : R) : Cplx := (x, 0).
Definition im (x : R) : Cplx := (0, x).
Definition up_up : list ((string * string) * Cplx) :=
  [(("px", "py"), im (- half_dec)); (("py", "px"), im half_dec); (("dxy", "dx2-y2"), im one_dec); (("dx2-y2", "dxy"), im (- one_dec));
   (("dyz", "dzx"), im half_dec); (("dzx", "dyz"), im (- half_dec))]%list.
Definition up_down : list ((string * string) * Cplx) :=
  [(("px", "pz"), re half_dec); (("py", "pz"), im (- half_dec)); (("pz", "px"), re (- half_dec)); (("pz", "py"), im half_dec);
   (("dxy", "dyz"), re half_dec); (("dxy", "dzx"), im (- half_dec)); (("dx2-y2", "dyz"), im half_dec); (("dx2-y2", "dzx"), re half_dec);
   (("dyz", "dxy"), re (- half_dec)); (("dyz", "dx2-y2"), im (- half_dec)); (("dyz", "dz2"), im (- root_dec)); (("dzx", "dxy"), im half_dec);
   (("dzx", "dx2-y2"), re (- half_dec)); (("dzx", "dz2"), re root_dec); (("dz2", "dyz"), im root_dec); (("dz2", "dzx"), re (- root_dec))]%list.
Definition down_up : list ((string * string) * Cplx) :=
  [(("px", "pz"), re (- half_dec)); (("py", "pz"), im (- half_dec)); (("pz", "px"), re half_dec); (("pz", "py"), im half_dec);
   (("dxy", "dyz"), re (- half_dec)); (("dxy", "dzx"), im (- half_dec)); (("dx2-y2", "dyz"), im half_dec); (("dx2-y2", "dzx"), re (- half_dec));
   (("dyz", "dxy"), re half_dec); (("dyz", "dx2-y2"), im (- half_dec)); (("dyz", "dz2"), im (- root_dec)); (("dzx", "dxy"), im half_dec);
   (("dzx", "dx2-y2"), re half_dec); (("dzx", "dz2"), re (- root_dec)); (("dz2", "dyz"), im root_dec); (("dz2", "dzx"), re root_dec)]%list.
(** advanced.py:1314-1347  SOCTable.eval; a KeyError gives 0 *)
Definition soc_table_eval (label_i spin_i label_j spin_j : string) : res Cplx :=
  check_soc label_i spin_i label_j spin_j (
    let idx := (label_i, label_j) in
    let look d f := Ok (match aget pair_eqb d idx with Some v => f v | None => Cre 0 end) in
    if (spin_i =? "up") && (spin_j =? "up") then look up_up (fun v => v)
    else if (spin_i =? "up") && (spin_j =? "down") then look up_down (fun v => v)
    else if (spin_i =? "down") && (spin_j =? "up") then look down_up (fun v => v)
    else look up_up (fun v => Cmul (Cre (-1)) v)).

(** advanced.py:1365-1367  the spin matrices, row by row *)
Definition mat2 : Type := ((Cplx * Cplx) * (Cplx * Cplx))%type.
Definition mscale (a : Cplx) (m : mat2) : mat2 := let '((p, q), (r, s)) := m in ((Cmul a p, Cmul a q), (Cmul a r, Cmul a s)).
Definition mneg (m : mat2) : mat2 := let '((p, q), (r, s)) := m in ((Copp p, Copp q), (Copp r, Copp s)).
Definition s_x : mat2 := mscale (Cre (1 / 2)) ((Cre 0, Cre 1), (Cre 1, Cre 0)).
Definition s_y : mat2 := mscale (Cre (1 / 2)) ((Cre 0, im (-1)), (im 1, Cre 0)).
Definition s_z : mat2 := mscale (Cre (1 / 2)) ((Cre 1, Cre 0), (Cre 0, Cre (-1))).
(** advanced.py:1368-1380  _data *)
Definition data0 : list ((string * string) * mat2) :=
  [(("px", "py"), mscale (im (-1)) s_z); (("px", "pz"), mscale (im 1) s_y); (("py", "pz"), mscale (im (-1)) s_x);
   (("dxy", "dx2-y2"), mscale (Cmul (Cre 2) (im 1)) s_z); (("dxy", "dzx"), mscale (im (-1)) s_x); (("dxy", "dyz"), mscale (im 1) s_y);
   (("dx2-y2", "dzx"), mscale (im 1) s_y); (("dx2-y2", "dyz"), mscale (im 1) s_x); (("dzx", "dyz"), mscale (im (-1)) s_z);
   (("dzx", "dz2"), mscale (Cmul (im 1) (Cre (sqrt 3))) s_y); (("dyz", "dz2"), mscale (Cmul (im (-1)) (Cre (sqrt 3))) s_x)]%list.
(** advanced.py:1381-1385  the transposed entries *)
Definition data2 : list ((string * string) * mat2) := fold_left (fun d kv => aset pair_eqb d (snd (fst kv), fst (fst kv)) (mneg (snd kv))) data0 [].
Definition data : list ((string * string) * mat2) := fold_left (fun d kv => aset pair_eqb d (fst kv) (snd kv)) data2 data0.
(** advanced.py:1390-1418  SOCTable2.eval *)
Definition soc_table2_eval (label_i spin_i label_j spin_j : string) : res Cplx :=
  check_soc label_i spin_i label_j spin_j (
    let m := match aget pair_eqb data (label_i, label_j) with Some m => m | None => ((Cre 0, Cre 0), (Cre 0, Cre 0)) end in
    let row := if spin_i =? "up" then fst m else snd m in
    Ok (if spin_j =? "up" then fst row else snd row)).
