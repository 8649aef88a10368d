(** Model of PrimitiveCell.print_hk (builder/primitive.py:24-50, 754-809).
    The text is modelled by its Python tokens: blanks and the line breaks inside
    the parentheses carry no meaning.  Numbers are printed by repr and read back
    unchanged, so that a numeric literal, complex or with a leading minus sign,
    is one token with its value. *)
From Coq Require Import Reals.
From Verif Require Import Prelude Vec Cx M_hop M_pc M_sync M_bloch.
Local Open Scope Z_scope.

(** [TName 0], [1], [2] are the symbols ka, kb, kc; [TExp] is exp_i, [THam i j]
    is ham[i, j] and [TConj] is .conjugate() *)
Inductive tok := TNum (z : Cplx) | TName (a : nat) | TExp | TLpar | TRpar | TMul | TAdd | TSub | THam (i j : Z) | TConj.

(** primitive.py:24: the default of eps *)
Definition eps : R := (1 / 100000)%R.

(** 37-40 the term without sign *)
Definition fds_term (f : R) (s : tok) : list tok :=
  if Rle_dec (Rabs (Rabs f - 1)) eps then [s] else [TNum (Cre (Rabs f)); TMul; s].
(** 34-47 one turn of the loop; both ways of adding the sign give the same
    tokens *)
Definition fds_step (result : list tok) (q : R * tok) : list tok :=
  if Rlt_dec eps (Rabs (fst q)) then
    result ++ (if Rlt_dec (fst q) 0 then TSub else TAdd) :: fds_term (fst q) (snd q)
  else result.
(** 48 lstrip("+") *)
Fixpoint lstrip_plus (l : list tok) : list tok :=
  match l with TAdd :: r => lstrip_plus r | _ => l end.
(** 24-50 f_dot_s *)
Definition f_dot_s (f : list R) (s : list tok) : list tok :=
  lstrip_plus (fold_left fds_step (combine f s) []).

Definition pair_eq (p q : Z * Z) : bool := (fst p =? fst q) && (snd p =? snd q).
(** 771-779 _add_hop *)
Definition hk_term (e : Cplx) (kdr : list tok) : list tok :=
  match kdr with
  | [] => [TNum e; TMul; TNum (Cre 1)]
  | _ => TNum e :: TMul :: TExp :: TLpar :: kdr ++ [TRpar]
  end.
Definition add_hop (hk : list ((Z * Z) * list tok)) (p : Z * Z) (e : Cplx) (kdr : list tok) : list ((Z * Z) * list tok) :=
  match aget pair_eq hk p with
  | Some t => aset pair_eq hk p (t ++ TAdd :: hk_term e kdr)
  | None => aset pair_eq hk p (hk_term e kdr)
  end.

Definition vlist (v : vec R) : list R := let '(x, y, z) := v in [x; y; z].
Definition k_labels : list tok := [TName 0; TName 1; TName 2].

(** 787 with 1080-1094 dr: the distances of the chosen convention *)
Definition hop_dr (conv : Z) (pos : list (vec R)) (rn : rn3) (i j : Z) : res (vec R) :=
  if conv =? 1 then
    bind (aread pos j) (fun pj => bind (aread pos i) (fun pi => Ok (vsub (vadd pj (vZ rn)) pi)))
  else Ok (vZ rn).

(** 789-795 one hopping term and its conjugate *)
Definition hk_step (conv : Z) (pos : list (vec R)) (acc : res (list ((Z * Z) * list tok))) (t : rn3 * pair2 * Cplx)
  : res (list ((Z * Z) * list tok)) :=
  bind acc (fun hk =>
    let '(rn, (i, j), e) := t in
    bind (hop_dr conv pos rn i j) (fun dr =>
      let hk := add_hop hk (i, j) e (f_dot_s (vlist dr) k_labels) in
      Ok (add_hop hk (j, i) (Cconj e) (f_dot_s (vlist (vopp dr)) k_labels)))).

(** 781-784 on-site energies *)
Definition hk_onsite (eng : list R) : list ((Z * Z) * list tok) :=
  fold_left (fun hk (q : Z * R) => aset pair_eq hk (fst q, fst q) [TNum (Cre (snd q))]) (combine (zrange (length eng)) eng) [].

(** A printed line: the matrix element on the left and the text on the right of
    the equality sign. *)
Definition line := ((Z * Z) * list tok)%type.

(** 798-809 the lines, without the last one, which explains exp_i *)
Definition hk_lines (hk : list ((Z * Z) * list tok)) : list line :=
  let red := filter (fun q : (Z * Z) * list tok => fst (fst q) <=? snd (fst q)) hk in
  map (fun q => (fst q, TLpar :: snd q ++ [TRpar])) red ++
  flat_map (fun q : (Z * Z) * list tok => let '(i, j) := fst q in
    if i =? j then [] else [((j, i), [THam i j; TConj])]) red.

(** 754-809 print_hk of a cell with synchronised arrays *)
Definition print_hk {L} (s : cached Cplx R R L) (conv : Z) : res (list line) :=
  if num_orb (c_pc s) =? 0 then Err PCOrbEmptyError
  else if (num_hop (hop (c_pc s)) =? 0)%nat then Err PCHopEmptyError
  else if negb ((conv =? 1) || (conv =? 2)) then Err ValueError
  else bind (fold_left (hk_step conv (map fst (c_orb s))) (c_hop s) (Ok (hk_onsite (map snd (c_orb s)))))
            (fun hk => Ok (hk_lines hk)).
