(** Model of tbplas/diagonal/z2.py.  Numbers are exact. *)
From Verif Require Import Prelude Vec Cx L_gersh M_super M_sample M_par M_lat.
From Coq Require Import Reals.
Local Open Scope R_scope.

Definition cmat := nat -> nat -> Cplx.
Definition csum (n : nat) (f : nat -> Cplx) : Cplx := esum (map f (seq 0 n)).
Definition Rltb (x y : R) : bool := negb (Rleb y x).

(** ** Phases of the Wilson loops *)
Section Loop.
  (** z2.py:54-65 _get_h_eigenstates (entry [b, i]: orbital b of state i), 67-76
      _get_d_eigenvalues, numpy.angle. *)
  Context (h_eig : V -> cmat) (d_eig : cmat -> list Cplx) (angle : Cplx -> R).
  Context (norb nocc : nat).
  (** z2.py:78-92 _eval_f_mat with np.vdot of two columns *)
  Definition f_mat (vec0 vec1 : cmat) : cmat :=
    fun i j => csum norb (fun b => Cmul (Cconj (vec0 b i)) (vec1 b j)).
  (** np.matmul of two (num_occ, num_occ) arrays, np.eye *)
  Definition matmul (a b : cmat) : cmat := fun i j => csum nocc (fun k => Cmul (a i k) (b k j)).
  Definition eye : cmat := fun i j => if Nat.eqb i j then (1, 0) else (0, 0).
  (** z2.py:94-107 _eval_phase *)
  Definition eval_phase (z : list Cplx) : list R := map (fun x => if Rltb (Cmod x) (/ 10 ^ 14) then 0 else angle x) z.
  (** x[x.argsort()] *)
  Fixpoint rinsert (x : R) (l : list R) : list R :=
    match l with [] => [x] | y :: r => if Rleb x y then x :: l else y :: rinsert x r end.
  Definition rsort (l : list R) : list R := fold_right rinsert [] l.
  (** z2.py:159-179: the D matrix from the eigenvectors along a. *)
  Definition d_mat (vecs : list cmat) : res cmat :=
    match vecs with
    | [] => Err IndexError
    | vec0_bak :: rest =>
        let '(d, vec0) := fold_left (fun s vec1 => (matmul (fst s) (f_mat (snd s) vec1), vec1)) rest (eye, vec0_bak) in
        Ok (matmul d (f_mat vec0 vec0_bak))
    end.
  (** z2.py:157-184: the body of the loop over kb. *)
  Definition phase_row (ka : list R) (kb kc : R) : res (Z -> R) :=
    bind (d_mat (map (fun a => h_eig (a, kb, kc)) ka)) (fun d =>
    as_row 0 (Z.of_nat nocc) (rsort (eval_phase (d_eig d)))).
  Definition phases_local (size rank : Z) (ka kb : list R) (kc : R) : res (arr (Z * Z) R) :=
    bind (dist_range size rank (Z.of_nat (length kb))) (fun ks =>
    loop (fun (s : arr (Z * Z) R) ib => bind (rd kb ib) (fun b => bind (phase_row ka b kc) (fun r => Ok (setrow s ib r)))) ks zeros).
  (** z2.py:126-188 calc_phases: the phases on each rank. *)
  Definition calc_phases (mpi : bool) (size : Z) (ka kb : list R) (kc : R) : res (list (arr (Z * Z) R)) :=
    bind (mapM (fun r => phases_local size r ka kb kc) (ranks size)) (fun ls => Ok (all_reduce mpi ls)).
End Loop.

(** ** Reordering *)
(** z2.py:109-124 _get_min_key: the first key whose value is within 1e-15 of
    the minimum. *)
Definition rmin (l : list R) (x : R) : R := fold_left (fun m y => if Rltb y m then y else m) l x.
Definition min_key {K} (d : list (K * R)) : option K :=
  match d with
  | [] => None
  | (_, v) :: r =>
      let m := rmin (map snd r) v in
      option_map fst (find (fun p => Rltb (Rabs (snd p - m)) (/ 10 ^ 15)) d)
  end.
(** z2.py:221-230: the candidates; keys are (m, n). *)
Definition candidates (threshold phase_j0 : R) (cp : list R) : list ((Z * Z) * R) :=
  flat_map (fun q : Z * R =>
    flat_map (fun n : Z =>
      let diff := Rabs (phase_j0 - (snd q + IZR n * PI)) in
      if Rltb diff threshold then [((fst q, n), diff)] else []) [-2; 0; 2]%Z) (enum cp).
(** z2.py:211-237: one row; l0 and l1 are the rows at ib and ib+1, cp the
    candidates that are left.  All rows have num_occ entries. *)
Fixpoint fix_row (threshold : R) (cp l0 l1 : list R) : list R :=
  match l0, l1 with
  | phase_j0 :: r0, phase_j1 :: r1 =>
      if Rltb threshold (Rabs (phase_j0 - phase_j1)) then
        match min_key (candidates threshold phase_j0 cp) with
        | Some (m, n) => (nth (Z.to_nat m) cp 0 + IZR n * PI) :: fix_row threshold (remove_nth (Z.to_nat m) cp) r0 r1
        | None => phase_j1 :: fix_row threshold cp r0 r1
        end
      else phase_j1 :: fix_row threshold cp r0 r1
  | _, _ => l1
  end.
(** z2.py:210-237 *)
Fixpoint fix_rows (threshold : R) (p0 : list R) (rows : list (list R)) : list (list R) :=
  match rows with
  | [] => []
  | p1 :: r => let q := fix_row threshold p1 p0 p1 in q :: fix_rows threshold q r
  end.
(** z2.py:242-269 *)
Fixpoint smooth_row (threshold : R) (cp l0 l1 l2 : list R) : list R :=
  match l0, l1, l2 with
  | phase_j0 :: r0, phase_j1 :: r1, x :: r2 =>
      let d := flat_map (fun q : Z * R => if Rltb (Rabs (phase_j1 - snd q)) threshold
                                          then [(fst q, Rabs (snd q - 2 * phase_j1 + phase_j0))] else []) (enum cp) in
      match min_key d with
      | Some m => nth (Z.to_nat m) cp 0 :: smooth_row threshold (remove_nth (Z.to_nat m) cp) r0 r1 r2
      | None => x :: smooth_row threshold cp r0 r1 r2
      end
  | _, _, _ => l2
  end.
Fixpoint smooth_rows (threshold : R) (p0 p1 : list R) (rows : list (list R)) : list (list R) :=
  match rows with
  | [] => []
  | p2 :: r => let q := smooth_row threshold p2 p0 p1 p2 in q :: smooth_rows threshold p1 q r
  end.
(** z2.py:190-270 reorder_phases *)
Definition reorder_phases (threshold : R) (smooth : bool) (phases : list (list R)) : list (list R) :=
  let fixed := match phases with [] => [] | p0 :: r => p0 :: fix_rows threshold p0 r end in
  if smooth then match fixed with p0 :: p1 :: r => p0 :: p1 :: smooth_rows threshold p0 p1 r | _ => fixed end
  else fixed.

(** z2.py:272-299 count_crossing *)
Definition row_crossing (ref : R) (p q : list R) : nat :=
  length (filter (fun xy => Rltb ((fst xy - ref) * (snd xy - ref)) 0) (combine p q)).
Fixpoint count_crossing (ref : R) (rows : list (list R)) : nat :=
  match rows with
  | p :: ((q :: _) as r) => (row_crossing ref p q + count_crossing ref r)%nat
  | _ => O
  end.
