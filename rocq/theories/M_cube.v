(** Model of Visualizer.plot_wfc3d (tbplas/visual.py:454-599) over the reals:
    the wave function on the grid and the text of the cube file. *)
From Coq Require Import Reals String.
From Verif Require Import Prelude Vec Cx M_super M_par M_lat M_atom M_broad L_gersh.
Local Open Scope Z_scope.
Notation V3 := (R * R * R)%type.

(** Text of the file: formatted fields and ends of lines. *)
Inductive item := Txt (s : string) | I5 (n : Z) | F12 (x : R) | E13 (x : R) | NL.

Record job := {
  j_pos : list V3;                 (* orb_pos_nm of the cell, orb_pos of the sample *)
  j_lat : V3 * V3 * V3;
  j_wfc : list Cplx;
  j_qn : list qnum;
  j_conv : Z;
  j_k : option V3;
  j_rnmax : option (Z * Z * Z);
  j_origin : option V3;
  j_size : option V3;
  j_res : R;
  j_kind : string }.

Definition Rltb (a b : R) : bool := if Rlt_dec a b then true else false.
Definition c3 (d : Z) (v : V3) : R := let '(x, y, z) := v in if d =? 0 then x else if d =? 1 then y else z.
Definition m3 (f : V3 -> V3) (m : V3 * V3 * V3) : V3 * V3 * V3 := let '(a, b, c) := m in (f a, f b, f c).
Definition pyrange (a b : Z) : list Z := map (fun i => a + i) (zrange (Z.to_nat (b - a))).

(** visual.py:505-510.  Without rn_max the bounds are those of numpy.zeros(3),
    which are no integers for range(). *)
Definition rn_frac (m : option (Z * Z * Z)) : res (list (Z * Z * Z)) :=
  match m with
  | None => Err TypeError
  | Some (a, b, c) =>
      Ok (flat_map (fun i => flat_map (fun j => map (fun k => (i, j, k)) (pyrange (- c) (c + 1))) (pyrange (- b) (b + 1))) (pyrange (- a) (a + 1)))
  end.
(** visual.py:513-521 *)
Definition lowest (pos : list V3) (d : Z) : res R := best Rleb (map (c3 d) pos).
Definition highest (pos : list V3) (d : Z) : res R := best (fun x y => Rleb y x) (map (c3 d) pos).
Definition three (f : Z -> res R) : res V3 := bind (f 0) (fun x => bind (f 1) (fun y => bind (f 2) (fun z => Ok (x, y, z)))).
Definition cube_origin (q : job) : res V3 := match j_origin q with Some o => Ok o | None => three (lowest (j_pos q)) end.
Definition cube_size (q : job) : res V3 :=
  match j_size q with
  | Some s => Ok s
  | None => three (fun d => bind (highest (j_pos q) d) (fun h => bind (lowest (j_pos q) d) (fun l =>
              let delta := (h - l)%R in Ok (if Rleb 1 delta then delta else 1%R))))
  end.
(** visual.py:522.  numpy.zeros of a negative size raises ValueError (533); the
    range of int32 is left out. *)
Definition num_grid (size : V3) (r : R) : res (Z * Z * Z) :=
  let '(x, y, z) := size in let n := (Rtrunc (x / r), Rtrunc (y / r), Rtrunc (z / r)) in
  let '(a, b, c) := n in if (a <? 0) || (b <? 0) || (c <? 0) then Err ValueError else Ok n.

Definition cube := Z -> Z -> Z -> Cplx.
Definition plus (a b : cube) : cube := fun i j k => Cadd (a i j k) (b i j k).
Definition times (c : Cplx) (a : cube) : cube := fun i j k => Cmul c (a i j k).
(** visual.py:537-550 for one orbital; all lengths in bohr. *)
Definition bloch_state (conv : Z) (kpt : V3) (lat : V3 * V3 * V3) (rns : list (Z * Z * Z)) (pos frac : V3) (qn : qnum)
    (org : V3) (n : Z * Z * Z) (r : R) : cube :=
  times (Cre (/ sqrt (INR (length rns))))
    (fold_left (fun b rn =>
       let pos_rn := vadd pos (vmat (vZ rn) lat) in
       let state := set_cube Rltb pos_rn qn org n r (fun _ _ _ => 0%R) in
       let phase := (2 * PI * np_dot kpt (if conv =? 1 then vadd (vZ rn) frac else vZ rn))%R in
       plus b (fun i j k => Cmul (Ccis phase) (Cre (state i j k)))) rns (fun _ _ _ => Cre 0)).
(** visual.py:536-551 *)
Definition total (q : job) (kpt : V3) (lat : V3 * V3 * V3) (rns : list (Z * Z * Z)) (pos fracs : list V3) (org : V3) (n : Z * Z * Z) (r : R) : res cube :=
  fold_left (fun acc (t : Z * V3) =>
    bind acc (fun cub =>
    bind (rd (j_qn q) (fst t)) (fun qn =>
    bind (rd fracs (fst t)) (fun frac =>
    bind (rd (j_wfc q) (fst t)) (fun c =>
    Ok (plus cub (times c (bloch_state (j_conv q) kpt lat rns (snd t) frac qn org n r)))))))) (enum pos) (Ok (fun _ _ _ => Cre 0)).
(** visual.py:552-557 *)
Definition part (kind : string) (c : Cplx) : R :=
  if String.eqb kind "real" then fst c else if String.eqb kind "imag" then snd c else (fst c * fst c + snd c * snd c)%R.
(** visual.py:560-564: a dictionary keeps the place of its keys. *)
Definition veqb (u v : V3) : bool := let '(a, b, c) := u in let '(x, y, z) := v in Reqb a x && Reqb b y && Reqb c z.
Fixpoint dput (k : V3) (v : Z) (d : list (V3 * Z)) : list (V3 * Z) :=
  match d with [] => [(k, v)] | (k', v') :: r => if veqb k' k then (k', v) :: r else (k', v') :: dput k v r end.
Definition atoms (qns : list qnum) (lat : V3 * V3 * V3) (rns : list (Z * Z * Z)) (pos : list V3) : res (list (V3 * Z)) :=
  fold_left (fun acc (t : Z * V3) =>
    fold_left (fun acc rn => bind acc (fun d => bind (rd qns (fst t)) (fun q => Ok (dput (vadd (snd t) (vmat (vZ rn) lat)) (q_z q) d)))) rns acc)
    (enum pos) (Ok []).
(** visual.py:566-599 *)
Definition indices (n : Z * Z * Z) : list (Z * Z * Z) :=
  let '(a, b, c) := n in
  flat_map (fun i => flat_map (fun j => map (fun k => (i, j, k)) (zrange (Z.to_nat c))) (zrange (Z.to_nat b))) (zrange (Z.to_nat a)).
Fixpoint data_loop (l : list R) (counter : Z) : list item :=
  match l with
  | [] => []
  | x :: r => if (counter + 1) mod 6 =? 0 then E13 x :: NL :: data_loop r 0 else E13 x :: data_loop r (counter + 1)
  end.
Definition write_cube (kind : string) (ats : list (V3 * Z)) (org : V3) (n : Z * Z * Z) (r : R) (cub : cube) : list item :=
  let '(ox, oy, oz) := org in let '(nx, ny, nz) := n in
  [Txt (kind ++ " part of wave function"); NL; Txt "Generated by tbplas"; NL] ++
  [I5 (Z.of_nat (length ats)); F12 ox; F12 oy; F12 oz; NL] ++
  [I5 nx; F12 r; F12 0; F12 0; NL] ++ [I5 ny; F12 0; F12 r; F12 0; NL] ++ [I5 nz; F12 0; F12 0; F12 r; NL] ++
  flat_map (fun a => let '((x, y, z), zv) := a in [I5 zv; F12 (IZR zv); F12 x; F12 y; F12 z; NL]) ats ++
  data_loop (map (fun t => let '(i, j, k) := t in part kind (cub i j k)) (indices n)) 0.

(** visual.py:454-599 on the process that writes.  [bohr] is BOHR2NM. *)
Definition plot_wfc3d (bohr : R) (q : job) : res (list item) :=
  let kpt := match j_k q with Some k => k | None => (0, 0, 0)%R end in
  bind (rn_frac (j_rnmax q)) (fun rns =>
  bind (cube_origin q) (fun org =>
  bind (cube_size q) (fun size =>
  bind (num_grid size (j_res q)) (fun n =>
  let au := vscale (/ bohr)%R in
  let pos := map au (j_pos q) in
  let lat := m3 au (j_lat q) in
  let org := au org in
  let r := (j_res q / bohr)%R in
  bind (cart2frac lat pos (0, 0, 0)%R) (fun fracs =>
  bind (total q kpt lat rns pos fracs org n r) (fun cub =>
  bind (atoms (j_qn q) lat rns pos) (fun ats =>
  Ok (write_cube (j_kind q) ats org n r cub)))))))).
