(** Model of tbplas/materials/xs2.py: make_tmdc.
    Decimal literals, quotients, math.sqrt(3) and 1 / math.sqrt(2) are exact.
    The hoppings are written over any scalars with these two square roots, of
    which the complex numbers are the intended ones.  Arrays are lists of rows. *)
From Coq Require Import String Reals.
From Verif Require Import Prelude Vec Qs Cx M_hop M_pc M_super M_lat M_hopdict M_graphene M_kane M_phos.
Open Scope Z_scope.

(** xs2.py:23-28: STRUCT_CONSTS, in 1 / 1000 nm; the third number is not used. *)
Definition tm_struct (material : string) : res (Z * Z) :=
  (if String.eqb material "MoS2" then Ok (316, 317) else
   if String.eqb material "MoSe2" then Ok (329, 333) else
   if String.eqb material "WS2" then Ok (315, 314) else
   if String.eqb material "WSe2" then Ok (328, 334) else Err NotImplementedError)%string.
(** xs2.py:30-66: HOP_CONSTS, in 1 / 10000 eV. *)
Definition tm_consts (material : string) : res (list Z) :=
  (
     if String.eqb material "MoS2" then Ok [10688; 10688; -7755; -12902; -12902; -1380; 874; 874; -28949; -19065; -19065; -2069; 323; -1739; 8651; -1872; -2979; 2747; -5581; -1916; 9122; 59; -679; 4096; 75; -2562; -995; -705; -1145; -2487; 1063; -385; -7883; -13790; 21584; -8836; -9402; 14114; -9535; 6517; -686; -1498; -2205; -2451] else
     if String.eqb material "MoSe2" then Ok [7819; 7819; -6567; -11726; -11726; -2297; 149; 149; -29015; -17806; -17806; -1460; 177; -2112; 9638; -1724; -2636; 2505; -4734; -2166; 9911; -36; -735; 3520; 47; -1912; -755; -680; -960; -2012; 1216; -394; -6946; -13258; 19415; -7720; -8738; 12677; -8578; 5545; -691; -1553; -2227; -2154] else
     if String.eqb material "WS2" then Ok [13754; 13754; -11278; -15534; -15534; -393; 1984; 1984; -33706; -23461; -23461; -2011; 263; -1749; 8726; -2187; -3716; 3537; -6892; -2112; 9673; 143; -818; 4896; -315; -3106; -1105; -989; -1467; -3030; 1645; -1018; -8855; -14376; 23121; -10130; -9878; 15629; -9491; 6718; -659; -1533; -2618; -2736] else
     if String.eqb material "WSe2" then Ok [10349; 10349; -9573; -13937; -13937; -1667; 984; 984; -33642; -21820; -21820; -1395; 129; -2171; 9763; -1985; -3330; 3190; -5837; -2399; 10470; 29; -912; 4233; -377; -2321; -797; -920; -1250; -2456; 1857; -1027; -7744; -14014; 20858; -8998; -9044; 14030; -8548; 5711; -676; -1608; -2618; -2424] else   Err NotImplementedError)%string.

(** xs2.py:145-146, 209-212 *)
Definition list0 : list (Z * Z * Z) := [(3, 4, 2); (6, 7, 5); (9, 10, 8)].
Definition list00 : list (Z * Z * Z * Z * Z) := [(0, 1, 3, 4, 2); (6, 7, 9, 10, 8)].
Definition list1 : list Z := [1; 2; 6; 7; 8].
Definition list2 : list Z := [3; 4; 5; 9; 10; 11].
Definition list3 : list (Z * Z) := [(3, 1); (5, 1); (4, 2); (10, 6); (9, 7); (11, 7); (10, 8)].
Definition list4 : list (Z * Z) := [(4, 1); (3, 2); (5, 2); (9, 6); (11, 6); (10, 7); (9, 8); (11, 8)].
Definition among (p : Z * Z) (l : list (Z * Z)) : bool := existsb (fun p' => (fst p =? fst p') && (snd p =? snd p')) l.
(** for i in a: for j in b: the assignments of the body, in order. *)
Definition loop2 {A} (a b : list Z) (f : Z -> Z -> list A) : list A := flat_map (fun i => flat_map (f i) b) a.

Section Terms.
  (** q a b: the number a / b; s3: the square root of three; is2: the inverse
      of the square root of two. *)
  Context {E : Type} {SE : Scalar E} (q : Z -> positive -> E) (s3 is2 : E) (big : E -> bool).
  Definition arr := list (list E).
  (** a[i, j]; all indices used are inside the arrays. *)
  Definition ent (m : arr) (i j : Z) : E := nth (Z.to_nat j) (nth (Z.to_nat i) m []) s0.
  (** a[i, j] = e for the listed (i, j, e), in order. *)
  Definition assign (m : arr) (l : list (Z * Z * E)) : arr :=
    fold_left (fun m a => mset m (Z.to_nat (fst (fst a))) (Z.to_nat (snd (fst a))) (snd a)) l m.
  Definition z11 : arr := repeat (repeat s0 11) 11.
  (** x / 2, x / 4, 3 * x, sqrt_3 * x *)
  Definition by2 (x : E) : E := smul x (q 1 2).
  Definition by4 (x : E) : E := smul x (q 1 4).
  Definition x3 (x : E) : E := smul (q 3 1) x.
  Definition xs (x : E) : E := smul s3 x.

  (** xs2.py:134-142: the targets of the unpacking of hop_data[11:], with the
      number of the matrix; each tuple of the table has 44 numbers. *)
  Definition targets : list (Z * (Z * Z)) :=
    [(1, (0, 0)); (1, (1, 1)); (1, (2, 2)); (1, (3, 3)); (1, (4, 4)); (1, (5, 5)); (1, (6, 6)); (1, (7, 7));
     (1, (8, 8)); (1, (9, 9)); (1, (10, 10)); (1, (2, 4)); (1, (5, 7)); (1, (8, 10)); (1, (0, 1)); (1, (2, 3));
     (1, (3, 4)); (1, (5, 6)); (1, (6, 7)); (1, (8, 9)); (1, (9, 10)); (5, (3, 0)); (5, (2, 1)); (5, (4, 1));
     (5, (8, 5)); (5, (10, 5)); (5, (9, 6)); (5, (8, 7)); (5, (10, 7)); (6, (8, 5)); (6, (10, 5)); (6, (8, 7)); (6, (10, 7))].
  Definition unpacked (k : Z) (data : list E) : arr :=
    assign z11 (flat_map (fun p : Z * (Z * Z) * E => if fst (fst p) =? k then [(fst (snd (fst p)), snd (snd (fst p)), snd p)] else []) (combine targets (skipn 11 data))).

  (** xs2.py:148-173: hop_mat2 *)
  Definition hop_mat2 (h : arr) : arr := assign z11
    (flat_map (fun m : Z * Z * Z => let '(a, b, c) := m in
       [(a, a, sadd (by4 (ent h a a)) (by4 (x3 (ent h b b))));
        (b, b, sadd (by4 (x3 (ent h a a))) (by4 (ent h b b)));
        (c, c, ent h c c);
        (c, b, ssub (by2 (xs (ent h c a))) (by2 (ent h c b)));
        (a, b, ssub (by4 (xs (ssub (ent h a a) (ent h b b)))) (ent h a b));
        (c, a, sadd (by2 (ent h c a)) (by2 (xs (ent h c b))))]) list0 ++
     [(0, 0, sadd (by4 (ent h 0 0)) (by4 (x3 (ent h 1 1))));
      (1, 1, sadd (by4 (x3 (ent h 0 0))) (by4 (ent h 1 1)));
      (0, 1, ssub (by4 (xs (ssub (ent h 0 0) (ent h 1 1)))) (ent h 0 1))]).
  (** xs2.py:148-174: hop_mat3 *)
  Definition hop_mat3 (h : arr) : arr := assign z11
    (flat_map (fun m : Z * Z * Z => let '(a, b, c) := m in
       [(c, b, ssub (by2 (sopp (xs (ent h c a)))) (by2 (ent h c b)));
        (a, b, ssub (by4 (sopp (xs (ssub (ent h a a) (ent h b b))))) (ent h a b));
        (c, a, ssub (by2 (ent h c a)) (by2 (xs (ent h c b))))]) list0 ++
     [(0, 1, ssub (by4 (sopp (xs (ssub (ent h 0 0) (ent h 1 1))))) (ent h 0 1))]).
  (** xs2.py:177-186: the body of the loop for hop_mat4 *)
  Definition step_mat4 (h : arr) (m : arr) (m2 : Z * Z * Z * Z * Z) : arr :=
    let '(p0, p1, p2, p3, p4) := m2 in
    let m := assign m [(p2, p0, sadd (by4 (ent h p2 p0)) (by4 (x3 (ent h p3 p1))));
                       (p3, p1, sadd (by4 (x3 (ent h p2 p0))) (by4 (ent h p3 p1)));
                       (p3, p0, sadd (by4 (sopp (xs (ent h p2 p0)))) (by4 (xs (ent h p3 p1))))] in
    let m := assign m [(p2, p1, ent m p3 p0)] in
    assign m [(p4, p0, by2 (sopp (xs (ent h p4 p1)))); (p4, p1, by2 (sopp (ent h p4 p1)))].
  (** xs2.py:176-189: hop_mat4 *)
  Definition hop_mat4 (h : arr) : arr :=
    assign (fold_left (step_mat4 h) list00 z11) [(8, 5, ent h 8 5); (9, 5, by2 (sopp (xs (ent h 10 5)))); (10, 5, by2 (sopp (ent h 10 5)))].

  (** numpy.dot of two (11, 11) arrays *)
  Definition mdot (a b : arr) : arr :=
    map (fun i => map (fun j => esum (map (fun k => smul (ent a i k) (ent b k j)) (zrange 11))) (zrange 11)) (zrange 11).
  Definition transp (a : arr) : arr := map (fun i => map (fun j => ent a j i) (zrange 11)) (zrange 11).
  (** xs2.py:194-205: before .transpose() *)
  Definition trans_rows : arr :=
    let o := s0 in let e := s1 in let t := is2 in let u := sopp is2 in
    [[o; o; o; e; o; o; o; o; o; o; o];
     [o; o; o; o; e; o; o; o; o; o; o];
     [o; o; o; o; o; o; o; t; o; o; t];
     [o; o; o; o; o; t; o; o; u; o; o];
     [o; o; o; o; o; o; t; o; o; u; o];
     [e; o; o; o; o; o; o; o; o; o; o];
     [o; e; o; o; o; o; o; o; o; o; o];
     [o; o; e; o; o; o; o; o; o; o; o];
     [o; o; o; o; o; o; o; t; o; o; u];
     [o; o; o; o; o; t; o; o; t; o; o];
     [o; o; o; o; o; o; t; o; o; t; o]].
  (** xs2.py:229, 264, 279, 310, 365 *)
  Definition changed (a : arr) : arr := let t := transp trans_rows in mdot (mdot t a) (transp t).

  (** xs2.py:216-228 *)
  Definition a_000 (eps : list E) (h5 : arr) : arr := assign z11
    (map (fun i => (i - 1, i - 1, nth (Z.to_nat (i - 1)) eps s0)) list1 ++
     loop2 list1 list2 (fun i j => if among (j, i) list4 then [(i - 1, j - 1, ent h5 (j - 1) (i - 1))] else []) ++
     map (fun i => (i - 1, i - 1, nth (Z.to_nat (i - 1)) eps s0)) list2 ++
     loop2 list2 list1 (fun i j => if among (i, j) list4 then [(i - 1, j - 1, ent h5 (i - 1) (j - 1))] else [])).
  (** xs2.py:237-263 *)
  Definition a_100 (h2 h3 h4 : arr) : arr := assign z11
    (loop2 list1 list1 (fun i j =>
       if i =? j then [(i - 1, i - 1, ent h2 (i - 1) (i - 1))]
       else if among (i, j) [(6, 8)] then [(i - 1, j - 1, ent h3 (i - 1) (j - 1)); (j - 1, i - 1, ent h2 (i - 1) (j - 1))]
       else if among (i, j) [(1, 2); (6, 7); (7, 8)] then [(i - 1, j - 1, sopp (ent h3 (i - 1) (j - 1))); (j - 1, i - 1, ent h2 (i - 1) (j - 1))]
       else []) ++
     loop2 list1 list2 (fun i j =>
       if among (j, i) list3 then [(i - 1, j - 1, ent h4 (j - 1) (i - 1))]
       else if among (j, i) list4 then [(i - 1, j - 1, ent h4 (j - 1) (i - 1))] else []) ++
     loop2 list2 list2 (fun i j =>
       if i =? j then [(i - 1, j - 1, ent h2 (i - 1) (j - 1))]
       else if among (i, j) [(3, 5); (9, 11)] then [(i - 1, j - 1, ent h3 (i - 1) (j - 1)); (j - 1, i - 1, ent h2 (i - 1) (j - 1))]
       else if among (i, j) [(3, 4); (4, 5); (9, 10); (10, 11)] then [(i - 1, j - 1, sopp (ent h3 (i - 1) (j - 1))); (j - 1, i - 1, ent h2 (i - 1) (j - 1))]
       else [])).
  (** xs2.py:268-278; the four branches assign the same. *)
  Definition a_110 (h6 : arr) : arr := assign z11
    (loop2 list1 list2 (fun i j => if among (j, i) [(9, 6); (11, 6); (9, 8); (11, 8)] then [(i - 1, j - 1, ent h6 (j - 1) (i - 1))] else [])).
  (** xs2.py:283-309 *)
  Definition a_010 (h2 h3 h4 : arr) : arr := assign z11
    (loop2 list1 list1 (fun i j =>
       if i =? j then [(i - 1, j - 1, ent h2 (i - 1) (j - 1))]
       else if among (i, j) [(6, 8)] then [(i - 1, j - 1, ent h3 (i - 1) (j - 1)); (j - 1, i - 1, ent h2 (i - 1) (j - 1))]
       else if among (i, j) [(1, 2); (6, 7); (7, 8)] then [(i - 1, j - 1, ent h3 (i - 1) (j - 1)); (j - 1, i - 1, sopp (ent h2 (i - 1) (j - 1)))]
       else []) ++
     loop2 list1 list2 (fun i j =>
       if among (j, i) list3 then [(i - 1, j - 1, sopp (ent h4 (j - 1) (i - 1)))]
       else if among (j, i) list4 then [(i - 1, j - 1, ent h4 (j - 1) (i - 1))] else []) ++
     loop2 list2 list2 (fun i j =>
       if i =? j then [(i - 1, j - 1, ent h2 (i - 1) (j - 1))]
       else if among (i, j) [(3, 5); (9, 11)] then [(i - 1, j - 1, ent h3 (i - 1) (j - 1)); (j - 1, i - 1, ent h2 (i - 1) (j - 1))]
       else if among (i, j) [(3, 4); (4, 5); (9, 10); (10, 11)] then [(i - 1, j - 1, ent h3 (i - 1) (j - 1)); (j - 1, i - 1, sopp (ent h2 (i - 1) (j - 1)))]
       else [])).
  (** xs2.py:314-364 *)
  Definition a__110 (h1 h6 : arr) : arr := assign z11
    (loop2 list1 list1 (fun i j =>
       if i =? j then [(i - 1, i - 1, ent h1 (i - 1) (i - 1))]
       else if among (i, j) [(6, 8)] then [(i - 1, j - 1, ent h1 (i - 1) (j - 1)); (j - 1, i - 1, ent h1 (i - 1) (j - 1))]
       else if among (i, j) [(1, 2); (6, 7); (7, 8)] then [(i - 1, j - 1, ent h1 (i - 1) (j - 1)); (j - 1, i - 1, sopp (ent h1 (i - 1) (j - 1)))]
       else []) ++
     loop2 list1 list2 (fun i j => let x := ent h6 (j - 1) (i - 1) in
       if among (j, i) [(9, 6)] then [(i - 1, j - 1, x)]
       else if among (j, i) [(11, 6)] then [(i - 1, j - 1, smul (q (-1) 2) x); (5, 9, by2 (sopp (xs x)))]
       else if among (j, i) [(9, 8)] then [(i - 1, j - 1, smul (q (-1) 2) x); (6, 8, by2 (sopp (xs x)))]
       else if among (j, i) [(11, 8)] then [(6, 9, by4 (x3 x)); (6, 10, by4 (xs x)); (7, 9, by4 (xs x)); (7, 10, by4 x)]
       else []) ++
     loop2 list2 list1 (fun i j => let x := ent h6 (i - 1) (j - 1) in
       if among (i, j) [(9, 6)] then [(i - 1, j - 1, x)]
       else if among (i, j) [(11, 6)] then [(i - 1, j - 1, smul (q (-1) 2) x); (9, 5, by2 (xs x))]
       else if among (i, j) [(9, 8)] then [(i - 1, j - 1, smul (q (-1) 2) x); (8, 6, by2 (xs x))]
       else if among (i, j) [(11, 8)] then [(9, 6, by4 (x3 x)); (10, 6, by4 (sopp (xs x))); (9, 7, by4 (sopp (xs x))); (10, 7, by4 x)]
       else []) ++
     loop2 list2 list2 (fun i j =>
       if i =? j then [(i - 1, i - 1, ent h1 (i - 1) (i - 1))]
       else if among (i, j) [(3, 5); (9, 11)] then [(i - 1, j - 1, ent h1 (i - 1) (j - 1)); (j - 1, i - 1, ent h1 (i - 1) (j - 1))]
       else if among (i, j) [(3, 4); (4, 5); (9, 10); (10, 11)] then [(i - 1, j - 1, ent h1 (i - 1) (j - 1)); (j - 1, i - 1, sopp (ent h1 (i - 1) (j - 1)))]
       else [])).
  (** xs2.py:106-367 gen_hop_dict after the look-up: the dictionary and the
      on-site energies. *)
  Definition gen_hop_dict (data : list E) : res (hd E * list E) :=
    let h1 := unpacked 1 data in let h5 := unpacked 5 data in let h6 := unpacked 6 data in
    let h2 := hop_mat2 h1 in let h3 := hop_mat3 h1 in let h4 := hop_mat4 h5 in
    let m := changed (a_000 (firstn 11 data) h5) in
    bind (dscript big (hd_new 11)
      [DSet [0; 0; 0] (assign m (map (fun i => (i, i, s0)) (zrange 11)));
       DSet [1; 0; 0] (changed (a_100 h2 h3 h4)); DSet [1; 1; 0] (changed (a_110 h6));
       DSet [0; 1; 0] (changed (a_010 h2 h3 h4)); DSet [-1; 1; 0] (changed (a__110 h1 h6))]) (fun d =>
    Ok (d, map (fun i => ent m i i) (zrange 11))).
End Terms.

(** xs2.py:91-103 gen_lattice with c = 1.0. *)
Definition tm_vectors (a : R) : mat R := ((a / 2, a * sqrt 3 / 2, 0), (- a / 2, a * sqrt 3 / 2, 0), (0, 0, 1))%R.
Definition tm_coords (a d : R) : list (vec R) :=
  repeat (0, a / sqrt 3, d / 2)%R 5 ++ repeat (0, 0, d)%R 3 ++ repeat (0, 0, 0)%R 3.
(** xs2.py:370-397 gen_orb_labels *)
Definition tm_elements (material : string) : res (string * string * string) :=
  (if String.eqb material "MoS2" then Ok ("Mo", "SA", "SB") else
   if String.eqb material "MoSe2" then Ok ("Mo", "SeA", "SeB") else
   if String.eqb material "WS2" then Ok ("W", "SA", "SB") else
   if String.eqb material "WSe2" then Ok ("W", "SeA", "SeB") else Err NotImplementedError)%string.
Definition tm_labels (material : string) : res (list string) :=
  bind (tm_elements material) (fun e => let '(m, xa, xb) := e in
  Ok (map (fun o => m ++ "_" ++ o)%string ["dz2"; "dxy"; "dx2-y2"; "dxz"; "dyz"]%string ++
      map (fun o => xa ++ "_" ++ o)%string ["px"; "py"; "pz"]%string ++
      map (fun o => xb ++ "_" ++ o)%string ["px"; "py"; "pz"]%string)).
(** xs2.py:400-417 make_tmdc; unit NM keeps the vectors. *)
Definition tmdc (material : string) : res (M_graphene.material Cplx R) :=
  bind (tm_struct material) (fun ad => let lat := tm_vectors (IZR (fst ad) / 1000)%R in
  bind (tm_consts material) (fun data =>
  bind (gen_hop_dict Cq (Cre (sqrt 3)) (Cre (1 / sqrt 2)) Cbig (map (fun z => Cq z 10000) data)) (fun de =>
  bind (cart2frac lat (tm_coords (IZR (fst ad) / 1000) (IZR (snd ad) / 1000)) (0, 0, 0)%R) (fun xs =>
  bind (tm_labels material) (fun ls =>
  bind (script Cconj 0%R pc_empty (map (fun p : vec R * Cplx * string => let '(x, y, z) := fst (fst p) in OpAddOrb [x; y; z] (snd (fst p)) (snd p)) (combine (combine xs (snd de)) ls))) (fun s =>
  match add_hopping_dict Cconj Cis0 Cbig s (fst de) with
  | (s', _, Ok _) => Ok {| m_lat := lat; m_pc := s' |}
  | (_, _, Err x) => Err x
  end)))))).
