(** Model of tbplas/adapter/wannier90.py.  The text of the files is taken as
    parsed: a hopping file is its list of degeneracies and its rows. *)
From Verif Require Import Prelude Vec M_hop M_pc.

Section Wan.
  Context {E X W L : Type} {SE : Scalar E} (conj : E -> E) (zero : X) (w0 : W) (l0 : L).
  (** abs(energy) < hop_eng_cutoff, division by an integer, energy.real *)
  Context (small : E -> bool) (over : E -> nat -> E) (real : E -> W).

  Definition rn5 : Type := (rn3 * (Z * Z))%type.
  Definition rn5_eqb (a b : rn5) : bool := rn_eqb (fst a) (fst b) && M_hop.pair_eqb (snd a) (snd b).
  Record hr_file := { degen : list Z; rows : list (rn3 * Z * Z * E) }.

  (** wannier90.py:83-104 read_hop: the lines of degeneracies are skipped, the
      orbital numbers start from 1 *)
  Definition read_hop (f : hr_file) : list rn5 * list E :=
    (map (fun r => let '(rn, i, j, _) := r in (rn, (i - 1, j - 1))) (rows f), map (fun r => snd r) (rows f)).
  (** wannier90.py:107-135 read_wsvec: a dict, later blocks replace earlier ones *)
  Definition read_wsvec (f : list (rn3 * Z * Z * list rn3)) : list (rn5 * list rn3) :=
    fold_left (fun d b => let '(rn, i, j, vs) := b in aset rn5_eqb d (rn, (i - 1, j - 1)) vs) f [].

  (** Python list.index *)
  Fixpoint index_of (l : list rn5) (k : rn5) : option nat :=
    match l with
    | [] => None
    | x :: r => if rn5_eqb k x then Some O else match index_of r k with Some n => Some (S n) | None => None end
    end.
  (** wannier90.py:156-165: the loop over the correction vectors of one key *)
  Definition apply_vec (ind_0 : rn5) (eng_bak : E) (num_vec : nat) (st : list rn5 * list E) (vec : rn3) : list rn5 * list E :=
    let '((a, b, c), p) := ind_0 in let '(x, y, z) := vec in
    let ind_1 := ((a + x, b + y, c + z), p) in
    match index_of (fst st) ind_1 with
    | Some ih_1 => (fst st, set_nth ih_1 (snd st) (over eng_bak num_vec))
    | None => (fst st ++ [ind_1], snd st ++ [over eng_bak num_vec])
    end.
  (** wannier90.py:138-165 apply_wsvec *)
  Definition apply_key (st : list rn5 * list E) (kv : rn5 * list rn3) : res (list rn5 * list E) :=
    match index_of (fst st) (fst kv) with
    | None => Err ValueError
    | Some ih_0 =>
      match nth_error (snd st) ih_0 with
      | None => Err IndexError
      | Some eng_bak => Ok (fold_left (apply_vec (fst kv) eng_bak (length (snd kv))) (snd kv) (fst st, set_nth ih_0 (snd st) s0))
      end
    end.
  Fixpoint apply_wsvec (wsvec : list (rn5 * list rn3)) (st : list rn5 * list E) : res (list rn5 * list E) :=
    match wsvec with
    | [] => Ok st
    | kv :: r => bind (apply_key st kv) (apply_wsvec r)
    end.

  (** wannier90.py:201-202: the orbitals, with default energy and label *)
  Definition add_all (s : pc E X W L) (pos : list (list X)) : pc E X W L * res (out E X W L) :=
    fold_left (fun st p => match snd st with Ok _ => add_orbital zero (fst st) p w0 l0 | Err _ => st end) pos (s, Ok ONone).
  (** wannier90.py:203-210: one hopping term *)
  Definition add_row (s : pc E X W L) (ind : rn5) (energy : E) : pc E X W L * res (out E X W L) :=
    if small energy then (s, Ok ONone) else
    let '((a, b, c), (i, j)) := ind in
    match add_hopping conj s [a; b; c] i j energy with
    | (s', Err PCHopDiagonalError) => set_orbital zero s' i None (Some (real energy)) None
    | r => r
    end.
  Fixpoint add_rows (s : pc E X W L) (ind : list rn5) (eng : list E) : pc E X W L * res (out E X W L) :=
    match ind, eng with
    | [], _ => (s, Ok ONone)
    | _ :: _, [] => (s, Err IndexError)
    | k :: ind', e :: eng' => match add_row s k e with (s', Ok _) => add_rows s' ind' eng' | r => r end
    end.
  (** wannier90.py:168-211 wan2pc after reading the files; [ws] is None when
      correct_hop is False, Some None when the file is missing.  Positions are
      the fractional coordinates (cart2frac: see C30). *)
  Definition wan2pc (pos : list (list X)) (hr : hr_file) (ws : option (option (list (rn3 * Z * Z * list rn3)))) : res (pc E X W L) :=
    bind (match ws with
          | None => Ok (read_hop hr)
          | Some None => Err FileNotFoundError
          | Some (Some f) => apply_wsvec (read_wsvec f) (read_hop hr)
          end) (fun st =>
    match add_all pc_empty pos with
    | (_, Err x) => Err x
    | (s, Ok _) => match add_rows s (fst st) (snd st) with (s', Ok _) => Ok s' | (_, Err x) => Err x end
    end).
End Wan.
Arguments hr_file : clear implicits.
