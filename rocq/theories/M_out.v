(** Model of the files that tbpm/solver.py writes: paths, directories, the saved
    configuration, the arrays and the text files of the Fortran subroutines.
    One process; what the others contribute enters through [average].  Paths
    are resolved by their text (no symbolic links).  Every OSError is
    FileNotFoundError.  The numerical work is given by parameters: M_tbpm, M_dc
    and M_hay model it. *)
From Coq Require Import Ascii String.
From Verif Require Import Prelude M_util M_tbpm.
Import ListNotations.
Local Open Scope string_scope.
Local Open Scope Z_scope.
Local Open Scope list_scope.

(** ** Paths *)
Definition path := list string.
(** the text between slashes *)
Fixpoint pieces (s : string) : list string :=
  match s with
  | EmptyString => [EmptyString]
  | String c r => if Ascii.eqb c "/" then EmptyString :: pieces r
                  else match pieces r with [] => [String c EmptyString] | p :: l => String c p :: l end
  end.
Definition follow (p : path) (name : string) : path :=
  if String.eqb name "" || String.eqb name "." then p else if String.eqb name ".." then removelast p else p ++ [name].
Definition resolve (cwd : path) (s : string) : path :=
  fold_left follow (pieces s) (match s with String "/" _ => [] | _ => cwd end).
Fixpoint path_eqb (a b : path) : bool :=
  match a, b with [], [] => true | x :: a, y :: b => String.eqb x y && path_eqb a b | _, _ => false end.

Section Out.
  Context {V A : Type} (toZ : V -> Z) (ofZ : Z -> V).
  Notation config := (@config V).
  (** a pickled configuration, an array, the text of a Fortran subroutine *)
  Inductive content := Pickle (c : config) | Array (a : A) | Text (ns rank : Z).
  Record world := { w_dirs : list path; w_files : list (path * content) }.
  Definition is_dir (w : world) (p : path) : bool := path_eqb p [] || existsb (path_eqb p) (w_dirs w).
  Definition is_file (w : world) (p : path) : bool := match aget path_eqb (w_files w) p with Some _ => true | None => false end.
  Context (cwd : path).
  (** os.path.exists *)
  Definition exists_ (w : world) (s : string) : bool :=
    negb (String.eqb s "") && (is_dir w (resolve cwd s) || is_file w (resolve cwd s)).
  (** os.mkdir *)
  Definition mkdir (w : world) (s : string) : res world :=
    let p := resolve cwd s in
    if String.eqb s "" || negb (is_dir w (removelast p)) then Err FileNotFoundError
    else Ok {| w_dirs := p :: w_dirs w; w_files := w_files w |}.
  (** open(s, 'wb') and everything written to it; Fortran OPEN *)
  Definition write (w : world) (s : string) (x : content) : res world :=
    let p := resolve cwd s in
    if is_dir w p || negb (is_dir w (removelast p)) then Err FileNotFoundError
    else Ok {| w_dirs := w_dirs w; w_files := aset path_eqb (w_files w) p x |}.
  Definition read (w : world) (s : string) : option content := aget path_eqb (w_files w) (resolve cwd s).

  (** ** The process *)
  (** The configuration is shared with the caller: changes are visible. *)
  Record state := { s_world : world; s_config : config; s_dir : string; s_prefix : string }.
  Definition M X := state -> state * res X.
  Definition ret {X} (x : X) : M X := fun s => (s, Ok x).
  Definition raise {X} (e : exn) : M X := fun s => (s, Err e).
  Definition seq_ {X Y} (m : M X) (f : X -> M Y) : M Y := fun s =>
    match m s with (s', Ok x) => f x s' | (s', Err e) => (s', Err e) end.
  Definition lift {X} (r : config -> res X) : M X := fun s => (s, r (s_config s)).
  Definition on_world (f : world -> res world) : M unit := fun s =>
    match f (s_world s) with
    | Ok w => ({| s_world := w; s_config := s_config s; s_dir := s_dir s; s_prefix := s_prefix s |}, Ok tt)
    | Err e => (s, Err e)
    end.
  Notation "x <- m ;; f" := (seq_ m (fun x => f)) (at level 61, m at next level, right associativity).

  Context (mpi : bool) (size rank : Z).
  Definition master : bool := rank =? 0.
  (** solver.py:144-153 save_config *)
  Definition save_config (filename : string) : M unit := fun s =>
    if master then on_world (fun w => write w (s_dir s ++ "/" ++ s_prefix s ++ "." ++ filename)%string (Pickle (s_config s))) s
    else (s, Ok tt).
  (** 105-142 set_output; [clock] is str(int(time.time())).  mkdir may have
      happened before this process looks only if it is not the master. *)
  Definition set_output (directory : string) (prefix : option string) (clock : string) : M unit := fun s =>
    let s := {| s_world := s_world s; s_config := s_config s; s_dir := directory;
                s_prefix := match prefix with Some p => p | None => clock end |} in
    (_ <- (if master then on_world (fun w => if exists_ w directory then Ok w else mkdir w directory) else ret tt) ;;
     save_config "config.pkl") s.
  (** 84-103 __init__ after MPIEnv.__init__ *)
  Definition new_solver (directory : string) (prefix : option string) (clock : string) : M unit :=
    _ <- lift check_params ;; set_output directory prefix clock.
  (** 131-132: the names *)
  Definition file_of (s : state) (key : string) : string := (s_dir s ++ "/" ++ s_prefix s ++ "." ++ key)%string.
  (** 155-173 _dist_sample *)
  Definition nr_name : string := "nr_random_samples".
  Definition dist : M Z := fun s =>
    match aget String.eqb (c_generic (s_config s)) nr_name with
    | None => (s, Err KeyError)
    | Some v =>
      match dist_sample mpi size (toZ v) with
      | Err e => (s, Err e)
      | Ok (n, ns) =>
        ({| s_world := s_world s;
            s_config := if n =? toZ v then s_config s else set_param (s_config s) Generic nr_name (ofZ n);
            s_dir := s_dir s; s_prefix := s_prefix s |}, Ok ns)
      end
    end.
  (** 236-254 _save_data *)
  Definition save_data (a : A) (key : string) (format : string) : M unit := fun s =>
    if String.eqb format "numpy" || String.eqb format "npy"
    then if master then on_world (fun w => write w (file_of s key ++ ".npy")%string (Array a)) s else (s, Ok tt)
    else (s, Err NotImplementedError).
  (** OPEN(unit=27, file=output_filename) and the WRITEs: on every process *)
  Definition text (key : string) (ns : Z) : M unit := fun s => on_world (fun w => write w (file_of s key) (Text ns rank)) s.

  (** The numerical work: Bessel functions and Hamiltonian may fail; the Fortran
      subroutine may stop; [average] is all_average. *)
  Context (prepare : string -> config -> res unit) (work : string -> Z -> config -> res A) (work_dc : Z -> config -> res (A * A))
          (average : A -> A).
  (** 256-284, 286-315, 317-352, 354-391 *)
  Definition calc_corr_dos : M A :=
    _ <- lift (prepare "dos") ;; ns <- dist ;; _ <- text "corr_DOS" ns ;; a <- lift (work "dos" ns) ;;
    let a := average a in _ <- save_data a "corr_DOS" "numpy" ;; ret a.
  Definition calc_corr_ldos : M A :=
    _ <- lift (prepare "ldos") ;; ns <- dist ;; _ <- text "corr_LDOS" ns ;; a <- lift (work "ldos" ns) ;;
    let a := average a in _ <- save_data a "corr_LDOS" "numpy" ;; ret a.
  Definition calc_corr_ac_cond : M A :=
    _ <- lift (prepare "ac") ;; ns <- dist ;; _ <- text "corr_AC" ns ;; a <- lift (work "ac" ns) ;;
    let a := average a in _ <- save_data a "corr_AC" "numpy" ;; ret a.
  Definition calc_corr_dyn_pol : M A :=
    _ <- lift (prepare "dyn_pol") ;; ns <- dist ;; _ <- text "corr_dyn_pol" ns ;; a <- lift (work "dyn_pol" ns) ;;
    let a := average a in _ <- save_data a "corr_dyn_pol" "numpy" ;; ret a.
  (** 393-441 *)
  Definition calc_corr_dc_cond : M (A * A) :=
    _ <- lift (prepare "dc") ;; ns <- dist ;; _ <- text "corr_DOS" ns ;; _ <- text "corr_DC" ns ;; ab <- lift (work_dc ns) ;;
    let a := average (fst ab) in let b := average (snd ab) in
    _ <- save_data a "corr_DOS" "numpy" ;; _ <- save_data b "corr_DC" "numpy" ;; ret (a, b).
  (** 443-470 *)
  Definition calc_hall_mu : M A :=
    _ <- lift (prepare "hall") ;; ns <- dist ;; a <- lift (work "hall" ns) ;;
    let a := average a in _ <- save_data a "hall_mu" "numpy" ;; ret a.
  (** 472-505 *)
  Definition calc_quasi_eigenstates (save : bool) : M A :=
    _ <- lift (prepare "qe") ;; ns <- dist ;; a <- lift (work "qe" ns) ;;
    let a := average a in _ <- (if save then save_data a "qe" "numpy" else ret tt) ;; ret a.
  (** 507-541: energies and densities; only the latter are saved; the number of
      samples is not distributed *)
  Definition calc_ldos_haydock : M (A * A) :=
    if negb (size =? 1) then raise RuntimeError else
    _ <- lift (prepare "haydock") ;; el <- lift (fun c => match aget String.eqb (c_generic c) nr_name with None => Err KeyError | Some v => bind (work "haydock_energies" (toZ v) c) (fun e => bind (work "haydock" (toZ v) c) (fun l => Ok (e, l))) end) ;;
    _ <- save_data (snd el) "ldos_haydock" "numpy" ;; ret el.
  (** 543-600 *)
  Definition calc_psi_t (save : bool) : M A :=
    if negb (size =? 1) then raise RuntimeError else
    _ <- lift (prepare "psi_t") ;; a <- lift (work "psi_t" 0) ;;
    _ <- (if save then save_data a "psi_t" "numpy" else ret tt) ;; ret a.
End Out.
