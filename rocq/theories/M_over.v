(** Model of orbital overlaps, tbplas/builder/overlap.py, and of the dense
    solver with its matrices that are kept between calls,
    tbplas/diagonal/base.py:119-150 and 232-273. *)
From Verif Require Import Prelude Vec M_hop M_pc M_sync M_bloch.

Section Over.
  Context {E T W L : Type} {SE : Scalar E} {ST : Scalar T}.
  Context (conj : E -> E) (zero : T) (one : W).
  (** overlap.py:24-30 Overlap.__init__ *)
  Definition overlap_of (model : pc E T W L) : pc E T W L :=
    {| locked := false; orbs := map (fun o => {| position := position o; energy := one; label := label o |}) (orbs model); hop := [] |}.
  Inductive oop := OnSite (orb_i : Z) (overlap : W) | OffSite (rn : list Z) (orb_i orb_j : Z) (overlap : E).
  (** overlap.py:32-60 set_onsite, add_offsite *)
  Definition ostep (s : pc E T W L) (o : oop) : pc E T W L * res (out E T W L) :=
    match o with
    | OnSite i w => set_orbital zero s i None (Some w) None
    | OffSite rn i j e => add_hopping conj s rn i j e
    end.
  Fixpoint orun (s : pc E T W L) (os : list oop) : pc E T W L * list (res (out E T W L)) :=
    match os with
    | [] => (s, [])
    | o :: r => let '(s1, a) := ostep s o in let '(s2, l) := orun s1 r in (s2, a :: l)
    end.

  Context (inj : W -> E) (cis : T -> E) (tau : T).
  (** overlap.py:62-82 set_overlap_dense, 84-99 set_overlap_csr *)
  Definition set_overlap_dense := set_ham_dense (L := L) conj inj cis tau.
  Definition set_overlap_csr := set_ham_csr (L := L) conj inj cis tau.

  (** base.py:148-151: h_mat and s_mat, square arrays with their sizes *)
  Record solver := { h_mat : option (Z * matrix (E := E)); s_mat : option (Z * matrix (E := E)) }.
  Definition new_solver : solver := {| h_mat := None; s_mat := None |}.
  (** base.py:247-251, 257-261: the array, new or multiplied by zero *)
  Definition cleared (n : Z) (b : option (Z * matrix (E := E))) : Z * matrix (E := E) :=
    match b with None => (n, mzero) | Some (k, _) => (k, mzero) end.
  (** Filling an array of another size than the model.  The compiled code does
      not check bounds; writing outside of the array is undefined and an error
      here. *)
  Definition fill (b : Z * matrix (E := E)) (q : cached E T W L) (k : vec T) (conv : Z) : res (Z * matrix (E := E)) :=
    bind (set_ham_dense conj inj cis tau q k conv (snd b)) (fun m =>
    if num_orb (c_pc q) <=? fst b then Ok (fst b, m) else Err IndexError).
  (** lapack.zheev and zhegv; None if info != 0 *)
  Context {A : Type} (zheev : Z -> matrix (E := E) -> option A) (zhegv : Z -> matrix (E := E) -> matrix (E := E) -> option A).
  Definition answer (a : option A) : res A := match a with Some x => Ok x | None => Err RuntimeError end.
  (** base.py:232-273 _diag_ham_dense.  zhegv refuses matrices of different
      sizes. *)
  Definition diag_dense (d : solver) (model : cached E T W L) (overlap : option (cached E T W L)) (k : vec T) (conv : Z) : solver * res A :=
    let n := num_orb (c_pc model) in
    let h := cleared n (h_mat d) in
    match fill h model k conv with
    | Err x => ({| h_mat := Some h; s_mat := s_mat d |}, Err x)
    | Ok h' =>
      match overlap with
      | None => ({| h_mat := Some h'; s_mat := s_mat d |}, answer (zheev (fst h') (snd h')))
      | Some o =>
        let s := cleared n (s_mat d) in
        match fill s o k conv with
        | Err x => ({| h_mat := Some h'; s_mat := Some s |}, Err x)
        | Ok s' => ({| h_mat := Some h'; s_mat := Some s' |},
                    if fst h' =? fst s' then answer (zhegv (fst h') (snd h') (snd s')) else Err ValueError)
        end
      end
    end.
  (** base.py:365-374: the energies assigned to a row of bands; [vals] takes the
      energies out of the answer.  numpy would repeat a single energy; the model
      raises as for all other lengths. *)
  Definition band_row (vals : A -> list T) (d : solver) (model : cached E T W L) (overlap : option (cached E T W L)) (k : vec T) (conv : Z) : solver * res (list T) :=
    let '(d', a) := diag_dense d model overlap k conv in
    (d', bind a (fun x => if Z.of_nat (length (vals x)) =? num_orb (c_pc model) then Ok (vals x) else Err ValueError)).
  (** base.py:365-369 and further calls of the same solver *)
  Fixpoint diag_all (d : solver) (calls : list (cached E T W L * option (cached E T W L) * vec T * Z)) : list (res A) :=
    match calls with
    | [] => []
    | (model, overlap, k, conv) :: r => let '(d', a) := diag_dense d model overlap k conv in a :: diag_all d' r
    end.
End Over.
Arguments oop : clear implicits.
Arguments OnSite {E W} _ _.
Arguments OffSite {E W} _ _ _ _.
