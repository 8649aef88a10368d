(** Slater-Koster integrals: SK of builder/advanced.py.  Real arithmetic is
    exact; hopping parameters are complex numbers. *)
From Coq Require Import Reals String Ascii.
From Verif Require Import Prelude Vec Cx L_gersh S_sk.
Local Open Scope R_scope.
Local Open Scope string_scope.

(** advanced.py:487-501 SK.__init__ *)
Definition is_p (l : string) : bool := (l =? "px") || (l =? "py") || (l =? "pz").
Definition is_d (l : string) : bool := (l =? "dxy") || (l =? "dyz") || (l =? "dzx") || (l =? "dx2-y2") || (l =? "dz2").
Definition sqrt3 : R := sqrt 3.
Definition half_sqrt3 : R := sqrt3 * (1 / 2).
(** advanced.py:503-513 _check_p_labels and 515-525 _check_d_labels; the loop
    over the labels is unrolled by the callers. *)
Definition check_p (l : string) : res unit := if is_p l then Ok tt else Err ValueError.
Definition check_d (l : string) : res unit := if is_d l then Ok tt else Err ValueError.
(** advanced.py:527-544 _perm_vector *)
Definition perm_vector (v : v3) (x_new : string) : res v3 :=
  let '(x, y, z) := v in
  if x_new =? "x" then Ok v else if x_new =? "y" then Ok (y, z, x) else if x_new =? "z" then Ok (z, x, y) else Err ValueError.
(** advanced.py:546-570 _remap_label *)
Definition map_table (x_new : string) (c : ascii) : res string :=
  let s := String c "" in
  if x_new =? "y" then (if s =? "x" then Ok "z" else if s =? "y" then Ok "x" else if s =? "z" then Ok "y" else Err KeyError)
  else (if s =? "x" then Ok "y" else if s =? "y" then Ok "z" else if s =? "z" then Ok "x" else Err KeyError).
Fixpoint remap_chars (x_new : string) (l : string) (acc : string) : res string :=
  match l with
  | EmptyString => Ok acc
  | String c l => bind (map_table x_new c) (fun s => remap_chars x_new l (acc ++ s))
  end.
Definition remap_label (l : string) (x_new : string) : res string :=
  if x_new =? "x" then Ok l
  else if (x_new =? "y") || (x_new =? "z") then
    match l with EmptyString => Err IndexError | String c rest => remap_chars x_new rest (String c "") end
  else Err ValueError.
(** advanced.py:572-586 _eval_dir_cos *)
Definition norm3 (r : v3) : R := sqrt (comp r 0 * comp r 0 + comp r 1 * comp r 1 + comp r 2 * comp r 2).
Definition eval_dir_cos (r : v3) : res (R * R * R) :=
  if Rleb (norm3 r) (/ 10 ^ 15) then Err ValueError
  else Ok (comp r 0 / norm3 r, comp r 1 / norm3 r, comp r 2 / norm3 r).
Definition neg3 (r : v3) : v3 := (- comp r 0, - comp r 1, - comp r 2).
(** label[1] *)
Definition char1 (l : string) : res string := match l with String _ (String c _) => Ok (String c "") | _ => Err IndexError end.

(** advanced.py:588-596 ss *)
Definition ss (v : Cplx) : res Cplx := Ok v.
(** advanced.py:598-618 sp *)
Definition sp (r : v3) (label_p : string) (v : Cplx) : res Cplx :=
  bind (check_p label_p) (fun _ => bind (eval_dir_cos r) (fun '(l, m, n) =>
  Ok (if label_p =? "px" then sc l v else if label_p =? "py" then sc m v else sc n v))).
(** advanced.py:620-654 sd *)
Definition sd (r : v3) (label_d : string) (v : Cplx) : res Cplx :=
  bind (check_d label_d) (fun _ =>
  let x_new := if label_d =? "dyz" then "y" else if label_d =? "dzx" then "z" else "x" in
  bind (perm_vector r x_new) (fun r => bind (remap_label label_d x_new) (fun label_d =>
  bind (eval_dir_cos r) (fun '(l, m, n) =>
  if label_d =? "dxy" then Ok (sc (sqrt3 * l * m) v)
  else if label_d =? "dx2-y2" then Ok (sc (half_sqrt3 * (l ^ 2 - m ^ 2)) v)
  else if label_d =? "dz2" then Ok (sc (n ^ 2 - 1 / 2 * (l ^ 2 + m ^ 2)) v)
  else Err ValueError)))).
(** advanced.py:656-693 pp *)
Definition pp (r : v3) (label_i label_j : string) (v_pps v_ppp : Cplx) : res Cplx :=
  bind (check_p label_i) (fun _ => bind (check_p label_j) (fun _ =>
  bind (char1 label_i) (fun x_new =>
  bind (perm_vector r x_new) (fun r => bind (remap_label label_i x_new) (fun label_i => bind (remap_label label_j x_new) (fun label_j =>
  if negb (label_i =? "px") then Err ValueError else
  bind (eval_dir_cos r) (fun '(l, m, n) =>
  Ok (if label_j =? "px" then Cadd (sc (l ^ 2) v_pps) (sc (1 - l ^ 2) v_ppp)
      else if label_j =? "py" then sc (l * m) (Csub v_pps v_ppp)
      else sc (l * n) (Csub v_pps v_ppp))))))))).
(** advanced.py:695-756 pd *)
Definition pd (r : v3) (label_p label_d : string) (v_pds v_pdp : Cplx) : res Cplx :=
  bind (check_p label_p) (fun _ => bind (check_d label_d) (fun _ =>
  bind (if (label_d =? "dxy") || (label_d =? "dyz") || (label_d =? "dzx") then
          bind (char1 label_p) (fun x_new =>
          bind (perm_vector r x_new) (fun r => bind (remap_label label_p x_new) (fun label_p => bind (remap_label label_d x_new) (fun label_d =>
          Ok (r, label_p, label_d)))))
        else Ok (r, label_p, label_d)) (fun '(r, label_p, label_d) =>
  bind (eval_dir_cos r) (fun '(l, m, n) =>
  let l2 := l ^ 2 in let m2 := m ^ 2 in let n2 := n ^ 2 in
  let l2_p_m2 := l2 + m2 in let l2_m_m2 := l2 - m2 in
  if label_p =? "px" then
    Ok (if label_d =? "dxy" then Cadd (sc (sqrt3 * l2 * m) v_pds) (sc (m * (1 - 2 * l2)) v_pdp)
        else if label_d =? "dyz" then sc (l * m * n) (Csub (sc sqrt3 v_pds) (sc 2 v_pdp))
        else if label_d =? "dzx" then Cadd (sc (sqrt3 * l2 * n) v_pds) (sc (n * (1 - 2 * l2)) v_pdp)
        else if label_d =? "dx2-y2" then Cadd (sc (half_sqrt3 * l * l2_m_m2) v_pds) (sc (l * (1 - l2_m_m2)) v_pdp)
        else Csub (sc (l * (n2 - 1 / 2 * l2_p_m2)) v_pds) (sc (sqrt3 * l * n2) v_pdp))
  else if label_p =? "py" then
    if label_d =? "dx2-y2" then Ok (Csub (sc (half_sqrt3 * m * l2_m_m2) v_pds) (sc (m * (1 + l2_m_m2)) v_pdp))
    else if label_d =? "dz2" then Ok (Csub (sc (m * (n2 - 1 / 2 * l2_p_m2)) v_pds) (sc (sqrt3 * m * n2) v_pdp))
    else Err ValueError
  else
    if label_d =? "dx2-y2" then Ok (Csub (sc (half_sqrt3 * n * l2_m_m2) v_pds) (sc (n * l2_m_m2) v_pdp))
    else if label_d =? "dz2" then Ok (Cadd (sc (n * (n2 - 1 / 2 * l2_p_m2)) v_pds) (sc (sqrt3 * n * l2_p_m2) v_pdp))
    else Err ValueError)))).
(** advanced.py:780-782: position in d_labels *)
Definition d_index (l : string) : nat :=
  if l =? "dxy" then 0 else if l =? "dyz" then 1 else if l =? "dzx" then 2 else if l =? "dx2-y2" then 3 else 4.
(** advanced.py:788-882: the part of dd for id_i <= id_j *)
Definition dd_sorted (r : v3) (label_i label_j : string) (v_dds v_ddp v_ddd : Cplx) : res Cplx :=
  let x_new := if (label_i =? "dyz") && ((label_j =? "dyz") || (label_j =? "dzx")) then "y"
               else if (label_i =? "dzx") && (label_j =? "dzx") then "z" else "x" in
  bind (perm_vector r x_new) (fun r => bind (remap_label label_i x_new) (fun label_i => bind (remap_label label_j x_new) (fun label_j =>
  bind (eval_dir_cos r) (fun '(l, m, n) =>
  let l2 := l ^ 2 in let m2 := m ^ 2 in let n2 := n ^ 2 in
  let l2_p_m2 := l2 + m2 in let l2_m_m2 := l2 - m2 in
  let lm := l * m in let mn := m * n in let nl := n * l in let l2m2 := l2 * m2 in
  let out factor t1 t2 t3 : res Cplx := Ok (sc factor (Cadd (Cadd (sc t1 v_dds) (sc t2 v_ddp)) (sc t3 v_ddd))) in
  if label_i =? "dxy" then
    if label_j =? "dxy" then out 1 (3 * l2m2) (l2_p_m2 - 4 * l2m2) (n2 + l2m2)
    else if label_j =? "dyz" then out nl (3 * m2) (1 - 4 * m2) (m2 - 1)
    else if label_j =? "dzx" then out mn (3 * l2) (1 - 4 * l2) (l2 - 1)
    else if label_j =? "dx2-y2" then out (lm * l2_m_m2) (3 / 2) (-2) (1 / 2)
    else out (sqrt3 * lm) (n2 - 1 / 2 * l2_p_m2) (-2 * n2) (1 / 2 * (1 + n2))
  else if label_i =? "dyz" then
    if label_j =? "dx2-y2" then out mn (3 / 2 * l2_m_m2) (- (1 + 2 * l2_m_m2)) (1 + 1 / 2 * l2_m_m2)
    else if label_j =? "dz2" then out (sqrt3 * mn) (n2 - 1 / 2 * l2_p_m2) (l2_p_m2 - n2) (- (1 / 2) * l2_p_m2)
    else Err ValueError
  else if label_i =? "dzx" then
    if label_j =? "dx2-y2" then out nl (3 / 2 * l2_m_m2) (1 - 2 * l2_m_m2) (-1 * (1 - 1 / 2 * l2_m_m2))
    else if label_j =? "dz2" then out (sqrt3 * nl) (n2 - 1 / 2 * l2_p_m2) (l2_p_m2 - n2) (- (1 / 2) * l2_p_m2)
    else Err ValueError
  else if label_i =? "dx2-y2" then
    if label_j =? "dx2-y2" then out 1 (3 / 4 * l2_m_m2 ^ 2) (l2_p_m2 - l2_m_m2 ^ 2) (n2 + 1 / 4 * l2_m_m2 ^ 2)
    else if label_j =? "dz2" then out (sqrt3 * l2_m_m2) (1 / 2 * (n2 - 1 / 2 * l2_p_m2)) (- n2) (1 / 4 * (1 + n2))
    else Err ValueError
  else
    if label_j =? "dz2" then out 1 ((n2 - 1 / 2 * l2_p_m2) ^ 2) (3 * n2 * l2_p_m2) (3 / 4 * l2_p_m2 ^ 2)
    else Err ValueError)))).
Definition conj_res (t : res Cplx) : res Cplx := bind t (fun t => Ok (Cconj t)).
(** advanced.py:758-883 dd; the recursive call has sorted labels. *)
Definition dd (r : v3) (label_i label_j : string) (v_dds v_ddp v_ddd : Cplx) : res Cplx :=
  bind (check_d label_i) (fun _ => bind (check_d label_j) (fun _ =>
  if (d_index label_j <? d_index label_i)%nat then conj_res (dd_sorted (neg3 r) label_j label_i v_dds v_ddp v_ddd)
  else dd_sorted r label_i label_j v_dds v_ddp v_ddd)).
(** advanced.py:885-931 ps, ds, dp *)
Definition ps (r : v3) (label_p : string) (v : Cplx) : res Cplx := conj_res (sp (neg3 r) label_p v).
Definition ds (r : v3) (label_d : string) (v : Cplx) : res Cplx := conj_res (sd (neg3 r) label_d v).
Definition dp (r : v3) (label_p label_d : string) (v_pds v_pdp : Cplx) : res Cplx := conj_res (pd (neg3 r) label_p label_d v_pds v_pdp).
(** advanced.py:933-984 eval *)
Definition sk_eval (r : v3) (label_i label_j : string) (V : sk_par) : res Cplx :=
  if label_i =? "s" then
    if label_j =? "s" then ss (v_sss V)
    else if is_p label_j then sp r label_j (v_sps V)
    else sd r label_j (v_sds V)
  else if is_p label_i then
    if label_j =? "s" then ps r label_i (v_sps V)
    else if is_p label_j then pp r label_i label_j (v_pps V) (v_ppp V)
    else pd r label_i label_j (v_pds V) (v_pdp V)
  else
    if label_j =? "s" then ds r label_i (v_sds V)
    else if is_p label_j then dp r label_j label_i (v_pds V) (v_pdp V)
    else dd r label_i label_j (v_dds V) (v_ddp V) (v_ddd V).
