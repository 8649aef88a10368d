(** Model of tbplas/materials/antimonene.py.
    Decimal literals, quotients and numpy.sqrt(3) are exact.  The hoppings are
    written over any scalars with an imaginary unit, of which the complex
    numbers are the intended ones. *)
From Coq Require Import String Reals.
From Verif Require Import Prelude Vec Qs Cx M_hop M_pc M_super M_lat M_hopdict M_graphene M_kane M_phos.
Open Scope Z_scope.

Section Terms.
  (** q a b: the number a / b; ii: the imaginary unit; lam: soc_lambda. *)
  Context {E : Type} {SE : Scalar E} (q : Z -> positive -> E) (ii lam : E) (big : E -> bool).
  (** antimonene.py:32-46 *)
  Definition sb_t (k : Z) : E :=
    q (nth (Z.to_nat k) [0; -209; 47; 18; -50; -11; 21; 8; -7; 7; 7; -6; -6; -3; -3; -4] 0) 100.
  (** antimonene.py:99-305: the item assignments, in order. *)
  Definition sb_items : list (dop E) :=
    let it x y i j k := DItem [x; y; 0] i j (sb_t k) in [
     it 0 (-1) 0 3 1; it 0 0 1 4 1; it (-1) 0 2 5 1; it 0 1 3 0 1; it 0 0 4 1 1;
     it 1 0 5 2 1; it 0 0 0 3 2; it (-1) 0 0 3 2; it (-1) 0 1 4 2; it 0 (-1) 1 4 2;
     it 0 (-1) 2 5 2; it 0 0 2 5 2; it 0 0 3 0 2; it 1 0 3 0 2; it 1 0 4 1 2;
     it 0 1 4 1 2; it 0 1 5 2 2; it 0 0 5 2 2; it 0 0 0 4 7; it (-1) 0 0 5 7;
     it (-1) 0 1 5 7; it 0 (-1) 1 3 7; it 0 (-1) 2 3 7; it 0 0 2 4 7; it 0 0 3 1 7;
     it 1 0 3 2 7; it 1 0 4 2 7; it 0 1 4 0 7; it 0 1 5 0 7; it 0 0 5 1 7;
     it (-1) 1 0 0 3; it 0 1 0 0 3; it 1 (-1) 0 0 3; it 0 (-1) 0 0 3; it 0 (-1) 1 1 3;
     it (-1) 0 1 1 3; it 0 1 1 1 3; it 1 0 1 1 3; it (-1) 0 2 2 3; it (-1) 1 2 2 3;
     it 1 0 2 2 3; it 1 (-1) 2 2 3; it (-1) 1 3 3 3; it 0 1 3 3 3; it 1 (-1) 3 3 3;
     it 0 (-1) 3 3 3; it 0 (-1) 4 4 3; it (-1) 0 4 4 3; it 0 1 4 4 3; it 1 0 4 4 3;
     it (-1) 0 5 5 3; it (-1) 1 5 5 3; it 1 0 5 5 3; it 1 (-1) 5 5 3; it 0 1 0 1 4;
     it (-1) 1 0 2 4; it (-1) 0 1 2 4; it 0 (-1) 1 0 4; it 1 (-1) 2 0 4; it 1 0 2 1 4;
     it 0 (-1) 3 4 4; it 1 (-1) 3 5 4; it 1 0 4 5 4; it 0 1 4 3 4; it (-1) 1 5 3 4;
     it (-1) 0 5 4 4; it 0 (-1) 0 1 6; it 1 (-1) 0 2 6; it 1 0 1 2 6; it 0 1 1 0 6;
     it (-1) 1 2 0 6; it (-1) 0 2 1 6; it 0 1 3 4 6; it (-1) 1 3 5 6; it (-1) 0 4 5 6;
     it 0 (-1) 4 3 6; it 1 (-1) 5 3 6; it 1 0 5 4 6; it (-1) 0 0 0 11; it 1 0 0 0 11;
     it (-1) 1 1 1 11; it 1 (-1) 1 1 11; it 0 (-1) 2 2 11; it 0 1 2 2 11; it (-1) 0 3 3 11;
     it 1 0 3 3 11; it (-1) 1 4 4 11; it 1 (-1) 4 4 11; it 0 (-1) 5 5 11; it 0 1 5 5 11;
     it (-1) 1 0 4 8; it (-1) 1 0 5 8; it (-1) (-1) 1 5 8; it (-1) (-1) 1 3 8; it 1 (-1) 2 3 8;
     it 1 (-1) 2 4 8; it 1 (-1) 3 1 8; it 1 (-1) 3 2 8; it 1 1 4 2 8; it 1 1 4 0 8;
     it (-1) 1 5 0 8; it (-1) 1 5 1 8; it 1 (-1) 0 4 12; it (-1) (-1) 0 5 12; it (-1) 1 1 5 12;
     it 1 (-1) 1 3 12; it (-1) (-1) 2 3 12; it (-1) 1 2 4 12; it (-1) 1 3 1 12; it 1 1 3 2 12;
     it 1 (-1) 4 2 12; it (-1) 1 4 0 12; it 1 1 5 0 12; it 1 (-1) 5 1 12; it 1 (-2) 0 3 5;
     it 0 (-2) 0 3 5; it 0 1 1 4 5; it 1 0 1 4 5; it (-2) 1 2 5 5; it (-2) 0 2 5 5;
     it (-1) 2 3 0 5; it 0 2 3 0 5; it (-1) 0 4 1 5; it 0 (-1) 4 1 5; it 2 (-1) 5 2 5;
     it 2 0 5 2 5; it (-2) 1 0 3 9; it 0 1 0 3 9; it 0 (-2) 1 4 9; it (-2) 0 1 4 9;
     it 1 0 2 5 9; it 1 (-2) 2 5 9; it 2 (-1) 3 0 9; it 0 (-1) 3 0 9; it 0 2 4 1 9;
     it 2 0 4 1 9; it (-1) 2 5 2 9; it (-1) 0 5 2 9; it 0 1 0 4 10; it (-2) 1 0 5 10;
     it (-2) 0 1 5 10; it 0 (-2) 1 3 10; it 1 (-2) 2 3 10; it 1 0 2 4 10; it 0 (-1) 3 1 10;
     it 2 (-1) 3 2 10; it 2 0 4 2 10; it 0 2 4 0 10; it (-1) 2 5 0 10; it (-1) 0 5 1 10;
     it 1 0 0 3 13; it (-2) 0 0 3 13; it (-2) 1 1 4 13; it 1 (-2) 1 4 13; it 0 (-2) 2 5 13;
     it 0 1 2 5 13; it (-1) 0 3 0 13; it 2 0 3 0 13; it (-1) 2 4 1 13; it 2 (-1) 4 1 13;
     it 0 2 5 2 13; it 0 (-1) 5 2 13; it 0 (-2) 0 1 14; it 2 (-2) 0 2 14; it 2 0 1 2 14;
     it 0 2 1 0 14; it (-2) 2 2 0 14; it (-2) 0 2 1 14; it 0 2 3 4 14; it (-2) 2 3 5 14;
     it (-2) 0 4 5 14; it 0 (-2) 4 3 14; it 2 (-2) 5 3 14; it 2 0 5 4 14; it 0 (-2) 1 0 15;
     it 2 (-2) 2 0 15; it 2 0 2 1 15; it 0 2 0 1 15; it (-2) 2 0 2 15; it (-2) 0 1 2 15;
     it 0 2 4 3 15; it (-2) 2 5 3 15; it (-2) 0 5 4 15; it 0 (-2) 3 4 15; it 2 (-2) 3 5 15;
     it 2 0 4 5 15
    ].
  (** antimonene.py:49-62 *)
  Definition sb_soc : list (list E) :=
    let so a b := smul (smul (q 1 2) lam) (sadd (q a 10000) (smul (q b 10000) ii)) in [
     [so 0 0; so 0 5854; so 0 (-5854); so 0 0; so 7020 (-4053); so 0 (-8107)];
     [so 0 (-5854); so 0 0; so 0 5854; so (-7020) 4053; so 0 0; so (-7020) (-4053)];
     [so 0 5854; so 0 (-5854); so 0 0; so 0 8107; so 7020 4053; so 0 0];
     [so 0 0; so (-7020) (-4053); so 0 (-8107); so 0 0; so 0 (-5854); so 0 5854];
     [so 7020 4053; so 0 0; so 7020 (-4053); so 0 5854; so 0 0; so 0 (-5854)];
     [so 0 8107; so (-7020) 4053; so 0 0; so 0 (-5854); so 0 5854; so 0 0]
    ].
  (** m[i:i+3, j:j+3] *)
  Definition sub3 (m : list (list E)) (i j : nat) : list (list E) :=
    map (fun row => firstn 3 (skipn j row)) (firstn 3 (skipn i m)).
  (** antimonene.py:311-323: the matrix of a cell for both spins. *)
  Definition widen (m : list (list E)) : list (list E) :=
    let h00 := sub3 m 0 0 in let h01 := sub3 m 0 3 in let h10 := sub3 m 3 0 in let h11 := sub3 m 3 3 in
    put_block (put_block (put_block (put_block (put_block (put_block (put_block (put_block (zeros 12)
      0 0 h00) 3 3 h00) 0 6 h01) 3 9 h01) 6 0 h10) 9 3 h10) 6 6 h11) 9 9 h11.
  (** antimonene.py:309-324: the loop writes the entry it has just read, so all
      entries can be read first. *)
  Definition widen_ops (d : hd E) : list (dop E) :=
    map (fun e : rn3 * stored E => let '(x, y, z) := fst e in
           DSet [x; y; z] (widen (match snd e with Dense m => m | Coo _ => [] end))) (d_hops d).
  (** numpy.kron(numpy.eye(2), m) *)
  Definition kron_eye2 (m : list (list E)) : list (list E) :=
    flat_map (fun a => map (fun row => flat_map (fun b => map (fun x => smul (if Bool.eqb a b then s1 else s0) x) row) [false; true]) m) [false; true].
  (** numpy: the sum of two arrays of one shape *)
  Definition arr_add (m m' : list (list E)) : list (list E) :=
    map (fun rr : list E * list E => map (fun xy : E * E => sadd (fst xy) (snd xy)) (combine (fst rr) (snd rr))) (combine m m').
  (** antimonene.py:93-325: the dictionary that is applied.  In the last line
      the sum is stored in the array of the dictionary and then assigned. *)
  Definition sb_dict (with_soc : bool) : res (hd E) :=
    bind (dscript big (hd_new 6) sb_items) (fun d =>
    if with_soc then
      let d0 := hd_resize d 12 in
      bind (dscript big d0 (widen_ops d0)) (fun d1 =>
      match hd_get d1 [0; 0; 0] with
      | (d2, Ok (Dense m)) => dscript big d2 [DSet [0; 0; 0] (arr_add m (kron_eye2 sb_soc))]
      | (_, Ok (Coo _)) => Err TypeError
      | (_, Err x) => Err x
      end)
    else Ok d).
End Terms.

(** antimonene.py:28-29, 65-68, 74-75; b = a / sqrt 3. *)
Definition sb_a : R := (411975806 / 1000000000)%R.
Definition sb_z : R := (16455347 / 100000000)%R.
Definition sb_b : R := (sb_a / sqrt 3)%R.
Definition sb_lat (c : R) : mat R :=
  ((3 / 2 * sb_b, - (1 / 2) * sb_a, 0), (3 / 2 * sb_b, 1 / 2 * sb_a, 0), (0, 0, c))%R.
Definition sb_site_1 : vec R := (- sb_b / 2, 0, - sb_z / 2)%R.
Definition sb_site_2 : vec R := (sb_b / 2, 0, sb_z / 2)%R.
(** antimonene.py:71-78 *)
Definition sb_coords (with_soc : bool) : list (vec R) :=
  let n := if with_soc then 6%nat else 3%nat in repeat sb_site_1 n ++ repeat sb_site_2 n.
(** antimonene.py:80-84 *)
Definition sb_labels (with_soc : bool) : list string :=
  if with_soc then ["p11+"; "p12+"; "p13+"; "p11-"; "p12-"; "p13-"; "p21+"; "p22+"; "p23+"; "p21-"; "p22-"; "p23-"]%string
  else ["p11"; "p12"; "p13"; "p21"; "p22"; "p23"]%string.
(** antimonene.py:12-329 make_antimonene; unit NM keeps the vectors. *)
Definition antimonene (with_soc : bool) (soc_lambda c : R) : res (material Cplx R) :=
  bind (cart2frac (sb_lat c) (sb_coords with_soc) (0, 0, 0)%R) (fun xs =>
  bind (script Cconj 0%R pc_empty (map (fun p => orb_op (snd p) (fst p)) (combine xs (sb_labels with_soc)))) (fun s =>
  bind (sb_dict Cq Cii (Cre soc_lambda) Cbig with_soc) (fun d =>
  match add_hopping_dict Cconj Cis0 Cbig s d with
  | (s', _, Ok _) => Ok {| m_lat := sb_lat c; m_pc := s' |}
  | (_, _, Err x) => Err x
  end))).
