(** Model of the collective operations of tbplas/parallel.py on numpy arrays with
    their layout in memory: MPI sees the memory, not the indices.  A list holds
    the arrays of the processes in the order of ranks; all processes take part.
    Strides and offsets count elements. *)
From Verif Require Import Prelude Vec M_super.
Local Open Scope Z_scope.

Section Mem.
  Context {E : Type} {SE : Scalar E}.
  Record ndarray := { shape : list Z; strides : list Z; base : nat; mem : list E }.
  Fixpoint dot (i s : list Z) : Z := match i, s with x :: i, y :: s => x * y + dot i s | _, _ => 0 end.
  Definition size (sh : list Z) : Z := fold_right Z.mul 1 sh.
  (** a[idx] with indices from 0 *)
  Definition item (a : ndarray) (idx : list Z) : option E := nth_error (mem a) (Z.to_nat (Z.of_nat (base a) + dot idx (strides a))).
  (** numpy's flags: dimensions of length 1 do not matter, and an array without
      elements is contiguous *)
  Fixpoint contig (dims : list (Z * Z)) (sd : Z) : bool :=
    match dims with
    | [] => true
    | (d, s) :: r => if d =? 1 then contig r sd else (s =? sd) && contig r (sd * d)
    end.
  Definition c_contiguous (a : ndarray) : bool := existsb (Z.eqb 0) (shape a) || contig (rev (combine (shape a) (strides a))) 1.
  Definition f_contiguous (a : ndarray) : bool := existsb (Z.eqb 0) (shape a) || contig (combine (shape a) (strides a)) 1.
  Inductive order := C | F.
  (** parallel.py:67-87 __get_array_order *)
  Definition get_array_order (a : ndarray) : res order :=
    if c_contiguous a then Ok C else if f_contiguous a then Ok F else Err ValueError.
  (** the strides of numpy.zeros(shape, order) *)
  Fixpoint up (sd : Z) (sh : list Z) : list Z := match sh with [] => [] | d :: r => sd :: up (sd * d) r end.
  Definition strides_of (o : order) (sh : list Z) : list Z := match o with F => up 1 sh | C => rev (up 1 (rev sh)) end.
  Definition zeros (sh : list Z) (o : order) : ndarray :=
    {| shape := sh; strides := strides_of o sh; base := 0; mem := repeat s0 (Z.to_nat (size sh)) |}.
  (** the buffer that mpi4py takes of an array *)
  Definition buffer (a : ndarray) : res (list E) :=
    if c_contiguous a || f_contiguous a then Ok (firstn (Z.to_nat (size (shape a))) (skipn (base a) (mem a))) else Err ValueError.
  Definition fill (a : ndarray) (b : list E) : ndarray :=
    {| shape := shape a; strides := strides a; base := base a; mem := firstn (base a) (mem a) ++ b ++ skipn (base a + length b) (mem a) |}.
  (** MPI.SUM of buffers *)
  Fixpoint plus_buf (a b : list E) : list E := match a, b with x :: a, y :: b => sadd x y :: plus_buf a b | _, _ => [] end.
  Definition sum_buf (n : nat) (l : list (list E)) : list E := fold_left plus_buf l (repeat s0 n).
  Definition sum_of (l : list ndarray) : res (list E) :=
    bind (mapM buffer l) (fun bs => Ok (sum_buf (match bs with b :: _ => length b | [] => 0%nat end) bs)).

  (** 140-153 all_reduce *)
  Definition all_reduce (mpi : bool) (l : list ndarray) : res (list ndarray) :=
    if mpi then
      bind (mapM (fun a => bind (get_array_order a) (fun o => Ok (zeros (shape a) o))) l) (fun zs =>
      bind (sum_of l) (fun b => Ok (map (fun z => fill z b) zs)))
    else Ok l.
  (** 121-138 reduce: the result of the master; the others get None *)
  Definition reduce (mpi : bool) (l : list ndarray) : res (list (option ndarray)) :=
    if mpi then
      match l with
      | [] => Ok []
      | a :: r =>
        bind (get_array_order a) (fun o =>
        bind (sum_of l) (fun b => Ok (Some (fill (zeros (shape a) o) b) :: map (fun _ => None) r)))
      end
    else Ok (map Some l).
  (** data /= n: integer arrays raise *)
  Definition divide (inexact : bool) (inv : E -> E) (n : Z) (a : ndarray) : res ndarray :=
    if inexact then Ok {| shape := shape a; strides := strides a; base := base a; mem := map (fun x => smul x (inv (sZ n))) (mem a) |}
    else Err TypeError.
  (** 175-189 all_average *)
  Definition all_average (inexact : bool) (inv : E -> E) (mpi : bool) (l : list ndarray) : res (list ndarray) :=
    if mpi then bind (all_reduce mpi l) (mapM (divide inexact inv (Z.of_nat (length l)))) else Ok l.
  (** 155-173 average *)
  Definition average (inexact : bool) (inv : E -> E) (mpi : bool) (l : list ndarray) : res (list (option ndarray)) :=
    if mpi then
      bind (reduce mpi l) (mapM (fun o => match o with
                                          | None => Ok None
                                          | Some a => bind (divide inexact inv (Z.of_nat (length l)) a) (fun a => Ok (Some a))
                                          end))
    else Ok (map Some l).
  (** 191-199 bcast: the memory of the master's array goes to all arrays *)
  Definition bcast (mpi : bool) (l : list ndarray) : res (list ndarray) :=
    if mpi then
      match l with
      | [] => Ok []
      | a :: r => bind (buffer a) (fun b => bind (mapM (fun x => bind (buffer x) (fun _ => Ok (fill x b))) r) (fun r => Ok (a :: r)))
      end
    else Ok l.
End Mem.
