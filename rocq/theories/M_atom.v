(** Model of the atomic wave functions drawn by plot_wfc3d,
    tbplas/cython/atom.pyx, over the reals.  The module is compiled with
    language_level=3, so that [/] between integers is the true division. *)
From Coq Require Import Reals.
From Verif Require Import Prelude.
Open Scope Z_scope.

(** atom.pyx:15-21 _factorial *)
Fixpoint fact_loop (steps : nat) (i : Z) (y : R) : R :=
  match steps with O => y | S k => fact_loop k (i + 1) (y * IZR i)%R end.
Definition factorial (n : Z) : R := fact_loop (Z.to_nat n) 1 1%R.

(** atom.pyx:24-30 _rnl_factor *)
Definition rnl_factor (z n l : Z) : R :=
  let a := (2 / (IZR (n ^ 2) * factorial (2 * l + 1)))%R in
  let b := sqrt (factorial (n + l) / factorial (n - l - 1)) in
  let c := sqrt (IZR (z ^ 3)) in
  (a * b * c)%R.

(** atom.pyx:33-41 _kummer; the state is (_sum, ck), [k] counts from 1 to -alpha *)
Fixpoint kummer_loop (alpha gamma : Z) (ita : R) (steps : nat) (k : nat) (sum ck : R) : R :=
  match steps with
  | O => sum
  | S r => let ck' := (ck * IZR (alpha + Z.of_nat k - 1) / IZR (gamma + Z.of_nat k - 1) / IZR (Z.of_nat k))%R in
           kummer_loop alpha gamma ita r (S k) (sum + ck' * ita ^ k)%R ck'
  end.
Definition kummer (alpha gamma : Z) (ita : R) : R := kummer_loop alpha gamma ita (Z.to_nat (- alpha)) 1 1%R 1%R.

(** atom.pyx:44-51 _radial *)
Definition radial (z n l : Z) (r : R) : R :=
  let ita := (2 * IZR z / IZR n * r)%R in
  let a := exp (- (1 / 2) * ita) in
  let b := powerRZ ita l in
  let c := kummer (- n + l + 1) (2 * l + 2) ita in
  (a * b * c)%R.

(** atom.pyx:54-56 _coeff *)
Definition coeff (a b c d : Z) : R := (IZR a / IZR b * sqrt (IZR c / (IZR d * PI)))%R.

(** atom.pyx:59-106 _ylm_factor *)
Definition ylm_factor (l m : Z) : R :=
  if l =? 0 then coeff 1 2 1 1
  else if l =? 1 then
    if m =? -1 then coeff 1 1 3 4
    else if m =? 0 then coeff 1 1 3 4
    else if m =? 1 then coeff 1 1 3 4
    else 0%R
  else if l =? 2 then
    if m =? -2 then coeff 1 2 15 1
    else if m =? -1 then coeff 1 2 15 1
    else if m =? 0 then coeff 1 4 5 1
    else if m =? 1 then coeff 1 2 15 1
    else if m =? 2 then coeff 1 4 15 1
    else 0%R
  else if l =? 3 then
    if m =? -3 then coeff 1 4 35 2
    else if m =? -2 then coeff 1 2 105 1
    else if m =? -1 then coeff 1 4 21 2
    else if m =? 0 then coeff 1 4 7 1
    else if m =? 1 then coeff 1 4 21 2
    else if m =? 2 then coeff 1 4 105 1
    else if m =? 3 then coeff 1 4 35 2
    else 0%R
  else 0%R.

(** atom.pyx:109-164 _ylm *)
Definition ylm (l m : Z) (x y z r : R) : R :=
  (if l =? 0 then 1
   else if l =? 1 then
     let denorm := r in
     if m =? -1 then 1 / denorm * y
     else if m =? 0 then 1 / denorm * z
     else if m =? 1 then 1 / denorm * x
     else 0
   else if l =? 2 then
     let denorm := r ^ 2 in
     if m =? -2 then 1 / denorm * (x * y)
     else if m =? -1 then 1 / denorm * (y * z)
     else if m =? 0 then 1 / denorm * (2 * z * z - x * x - y * y)
     else if m =? 1 then 1 / denorm * (z * x)
     else if m =? 2 then 1 / denorm * (x * x - y * y)
     else 0
   else if l =? 3 then
     let denorm := r ^ 3 in
     if m =? -3 then 1 / denorm * y * (3 * x * x - y * y)
     else if m =? -2 then 1 / denorm * (x * y * z)
     else if m =? -1 then 1 / denorm * y * (4 * z * z - x * x - y * y)
     else if m =? 0 then 1 / denorm * z * (2 * z * z - 3 * x * x - 3 * y * y)
     else if m =? 1 then 1 / denorm * x * (4 * z * z - x * x - y * y)
     else if m =? 2 then 1 / denorm * z * (x * x - y * y)
     else if m =? 3 then 1 / denorm * x * (x * x - 3 * y * y)
     else 0
   else 0)%R.

(** atom.pyx:167-210 set_cube; [ltb] compares reals.  The array is a function of
    its indices, changed at the points of the grid. *)
Section Cube.
  Context (ltb : R -> R -> bool).
  Record qnum := { q_z : Z; q_n : Z; q_l : Z; q_m : Z }.
  Definition grid_value (q : qnum) (dx dy dz : R) : R :=
    let factor := (rnl_factor (q_z q) (q_n q) (q_l q) * ylm_factor (q_l q) (q_m q))%R in
    let r := sqrt (dx ^ 2 + dy ^ 2 + dz ^ 2) in
    if ltb r (1 / 10000000)%R then 0%R else (radial (q_z q) (q_n q) (q_l q) r * ylm (q_l q) (q_m q) dx dy dz r * factor)%R.
  Definition set_cube (c0 : R * R * R) (q : qnum) (cube_origin : R * R * R) (num_grid : Z * Z * Z) (res : R) (cube : Z -> Z -> Z -> R) : Z -> Z -> Z -> R :=
    let '(cx, cy, cz) := c0 in let '(xmin, ymin, zmin) := cube_origin in let '(nx, ny, nz) := num_grid in
    fun i j k =>
      if (0 <=? i) && (i <? nx) && ((0 <=? j) && (j <? ny)) && ((0 <=? k) && (k <? nz))
      then grid_value q (xmin + res * IZR i - cx)%R (ymin + res * IZR j - cy)%R (zmin + res * IZR k - cz)%R
      else cube i j k.
End Cube.
