(** Model of tbplas/diagonal/magnetic.py.  Numbers are exact. *)
From Coq Require Import String.
From Verif Require Import Prelude Vec Cx M_super M_sample M_par.
From Coq Require Import Reals.

(** np.vdot of two vectors *)
Definition vdot (u d : list Cplx) : res Cplx :=
  if Nat.eqb (length u) (length d) then Ok (esum (map (fun p => Cmul (Cconj (fst p)) (snd p)) (combine u d))) else Err ValueError.
(** state[0::2] and state[1::2] *)
Fixpoint every_other {A} (l : list A) : list A := match l with [] => [] | x :: r => x :: match r with [] => [] | _ :: r' => every_other r' end end.
(** magnetic.py:56-80 split_spin *)
Definition split_spin (spin_major : bool) (num_orb : Z) (state : list Cplx) : list Cplx * list Cplx :=
  let n := Z.to_nat (num_orb / 2) in
  if spin_major then (firstn n state, skipn n state) else (every_other state, every_other (tl state)).
(** magnetic.py:102-107: the expectation before [.real] is taken. *)
Definition expect (component : string) (u d : list Cplx) : res Cplx :=
  if String.eqb component "x" then bind (vdot u d) (fun a => bind (vdot d u) (fun b => Ok (Cadd a b)))
  else if String.eqb component "y" then bind (vdot u d) (fun a => bind (vdot d u) (fun b => Ok (Cadd (Cmul (0, -1)%R a) (Cmul (0, 1)%R b))))
  else bind (vdot u u) (fun a => bind (vdot d d) (fun b => Ok (Csub a b))).

Section Tex.
  (** [solve] is DiagSolver._diag_ham_dense of the current model (eigenvalues and rows of eigenstates.T), [hash] the
      built-in hash of the tuple of k-points. *)
  Context {Md H : Type} (solve : Md -> vec R -> res (list R * list (list Cplx))) (num_orb : Md -> Z)
          (hash : list (vec R) -> H) (heqb : H -> H -> bool).
  Context (mpi : bool) (size : Z).
  (** Shape (num_kpt, num_bands, num_orb) and entries of the array on each rank. *)
  Record states := mk_states { sh_k : Z; sh_b : Z; sh_o : Z; entries : list (arr (Z * (Z * Z)) Cplx) }.
  Record tex := mk_tex { t_model : Md; t_grid : list (vec R); t_major : bool; t_hash : option H; t_states : option states }.
  (** magnetic.py:29-43 *)
  Definition new_tex (m : Md) (g : list (vec R)) (major : bool) : tex := mk_tex m g major None None.
  (** base.py:459-521 calc_states(k_grid, all_reduce=False)[1]. *)
  Definition get_states (m : Md) (g : list (vec R)) : res states :=
    bind (calc_states (solve m) mpi size g (num_orb m) (num_orb m) false) (fun ls =>
    Ok (mk_states (Z.of_nat (length g)) (num_orb m) (num_orb m) (map snd ls))).
  (** magnetic.py:45-54 update_states.  The hash is stored before the states
      are calculated. *)
  Definition update_states (s : tex) : tex * res unit :=
    let h := hash (t_grid s) in
    if match t_hash s with Some h' => heqb h' h | None => false end then (s, Ok tt)
    else match get_states (t_model s) (t_grid s) with
         | Ok st => (mk_tex (t_model s) (t_grid s) (t_major s) (Some h) (Some st), Ok tt)
         | Err e => (mk_tex (t_model s) (t_grid s) (t_major s) (Some h) (t_states s), Err e)
         end.
  (** self._states[i_k, i_b]; indices are non-negative. *)
  Definition state_at (st : states) (a : arr (Z * (Z * Z)) Cplx) (ik ib : Z) : res (list Cplx) :=
    if (ik <? sh_k st) && (ib <? sh_b st) then Ok (map (fun o => a (ik, (ib, o))) (zrange (Z.to_nat (sh_o st)))) else Err IndexError.
  (** magnetic.py:98-108: one k-point. *)
  Definition eval_row (component : string) (major : bool) (no : Z) (st : states) (a : arr (Z * (Z * Z)) Cplx) (ik : Z) : res (Z -> R) :=
    bind (mapM (fun ib => bind (state_at st a ik ib) (fun psi => let '(u, d) := split_spin major no psi in
                          bind (expect component u d) (fun z => Ok (fst z)))) (zrange (Z.to_nat no))) (fun l =>
    Ok (fun j => nth (Z.to_nat j) l 0%R)).
  Definition eval_local (component : string) (s : tex) (st : states) (rank : Z) (a : arr (Z * (Z * Z)) Cplx) : res (arr (Z * Z) R) :=
    bind (dist_range size rank (Z.of_nat (length (t_grid s)))) (fun ks =>
    loop (fun x ik => bind (eval_row component (t_major s) (num_orb (t_model s)) st a ik) (fun r => Ok (setrow x ik r))) ks zeros).
  (** magnetic.py:82-112 eval: the expectation values on each rank. *)
  Definition eval (component : string) (s : tex) : tex * res (list (arr (Z * Z) R)) :=
    let '(s', r) := update_states s in
    (s', bind r (fun _ =>
         match t_states s' with
         | None => Err TypeError          (* None[i_k, i_b] *)
         | Some st => bind (mapM (fun ra => eval_local component s' st (fst ra) (snd ra)) (enum (entries st))) (fun ls => Ok (all_reduce mpi ls))
         end)).
  (** Calls of a user: the k_grid setter (magnetic.py:124-133), a change of
      the model, eval. *)
  Inductive op := SetGrid (g : list (vec R)) | EditModel (m : Md) | Eval (component : string).
  Definition step (s : tex) (o : op) : tex * list (res (list (arr (Z * Z) R))) :=
    match o with
    | SetGrid g => (mk_tex (t_model s) g (t_major s) (t_hash s) (t_states s), [])
    | EditModel m => (mk_tex m (t_grid s) (t_major s) (t_hash s) (t_states s), [])
    | Eval c => let '(s', r) := eval c s in (s', [r])
    end.
  Fixpoint run (s : tex) (ops : list op) : list (res (list (arr (Z * Z) R))) :=
    match ops with [] => [] | o :: r => let '(s', out) := step s o in out ++ run s' r end.
End Tex.
