(** Model of the parallel loops of the Fortran extension: OpenMP threads that
    access memory one variable at a time, in any order.

    A loop body is a program of reads and writes of named variables.  A
    variable of the PRIVATE clause, the variable of the parallel loop and the
    variables of loops inside (private by the rules of OpenMP) have one copy
    for each thread, with an undefined value at the beginning; all others
    have one copy in shared memory.  A variable of a REDUCTION clause has one
    copy for each thread, zero at the beginning; at the end the copies are
    added to the shared variable.  Lanes of SIMD loops are threads of their
    own.  Accesses are atomic and sequentially consistent; this is no
    restriction for programs without data races, and the loops have none.
    Exact numbers for floats. *)
From Verif Require Import Prelude Vec Cx.
From Coq Require Import String.
Local Open Scope string_scope.
Local Open Scope Z_scope.

Section Omp.
  Context {E : Type} {SE : Scalar E}.

  Inductive val := I (z : Z) | N (x : E).
  Definition toZ (v : val) : Z := match v with I z => z | N _ => 0 end.
  (** assignments convert integers *)
  Definition toE (v : val) : E := match v with I z => sZ z | N x => x end.

  Inductive loc := Var (x : string) | Arr (a : string) (idx : list Z).
  Fixpoint idx_eqb (a b : list Z) : bool :=
    match a, b with [], [] => true | x :: a, y :: b => (x =? y) && idx_eqb a b | _, _ => false end.
  Definition loc_eqb (a b : loc) : bool :=
    match a, b with
    | Var x, Var y => String.eqb x y
    | Arr a i, Arr b j => String.eqb a b && idx_eqb i j
    | _, _ => false
    end.

  Inductive prog (A : Type) := Ret (a : A) | Rd (x : loc) (k : val -> prog A) | Wr (x : loc) (v : val) (p : prog A).
  Arguments Ret {A} a. Arguments Rd {A} x k. Arguments Wr {A} x v p.
  Fixpoint pbind {A B} (p : prog A) (f : A -> prog B) : prog B :=
    match p with
    | Ret a => f a
    | Rd x k => Rd x (fun v => pbind (k v) f)
    | Wr x v q => Wr x v (pbind q f)
    end.

  (** Reading integers and numbers, assignments. *)
  Definition geti (x : loc) : prog Z := Rd x (fun v => Ret (toZ v)).
  Definition get (x : loc) : prog E := Rd x (fun v => Ret (toE v)).
  Definition puti (x : loc) (z : Z) : prog unit := Wr x (I z) (Ret tt).
  Definition put (x : loc) (e : E) : prog unit := Wr x (N e) (Ret tt).
  (** DO x = lo, lo + n - 1; the number of iterations is fixed before the
      first one. *)
  Fixpoint iter (x : string) (z : Z) (n : nat) (body : prog unit) : prog unit :=
    match n with
    | O => puti (Var x) z
    | S n => pbind (puti (Var x) z) (fun _ => pbind body (fun _ => iter x (z + 1) n body))
    end.
  Definition do_ (x : string) (lo hi : Z) (body : prog unit) : prog unit := iter x lo (Z.to_nat (hi - lo + 1)) body.

  Definition mem := loc -> val.
  Definition upd {B} (m : loc -> B) (x : loc) (v : B) : loc -> B := fun y => if loc_eqb y x then v else m y.
  Definition env := string -> val.
  Definition eupd (e : env) (x : string) (v : val) : env := fun y => if String.eqb y x then v else e y.
  Record thread := { priv : env; code : prog unit }.
  Definition state := (mem * list thread)%type.

  (** [ps]: the names with one copy for each thread. *)
  Definition hidden (ps : list string) (x : loc) : option string :=
    match x with Var s => if existsb (String.eqb s) ps then Some s else None | Arr _ _ => None end.
  (** Thread n makes its next access. *)
  Definition turn (ps : list string) (s : state) (n : nat) : state :=
    let '(m, ts) := s in
    match nth_error ts n with
    | None => s
    | Some t =>
        match code t with
        | Ret _ => s
        | Rd x k =>
            let v := match hidden ps x with Some y => priv t y | None => m x end in
            (m, set_nth n ts {| priv := priv t; code := k v |})
        | Wr x v p =>
            match hidden ps x with
            | Some y => (m, set_nth n ts {| priv := eupd (priv t) y v; code := p |})
            | None => (upd m x v, set_nth n ts {| priv := priv t; code := p |})
            end
        end
    end.
  Definition run (ps : list string) (sched : list nat) (s : state) : state := fold_left (turn ps) sched s.
  Definition done (s : state) : Prop := Forall (fun t => code t = Ret tt) (snd s).

  (** The iterations of one thread, one after the other. *)
  Fixpoint chain (lv : string) (body : prog unit) (l : list Z) : prog unit :=
    match l with
    | [] => Ret tt
    | i :: r => Wr (Var lv) (I i) (pbind body (fun _ => chain lv body r))
    end.
  (** Thread k gets the iterations [plan k] and starts with private values
      [undef k]. *)
  Definition launch (lv : string) (body : prog unit) (plan : list (list Z)) (undef : list env) (m : mem) : state :=
    (m, map (fun q => {| priv := snd q; code := chain lv body (fst q) |}) (combine plan undef)).
  (** DO lv = lo, hi *)
  Definition range (lo hi : Z) : list Z := map (fun k => lo + k) (zrange (Z.to_nat (hi - lo + 1))).
End Omp.
Arguments Ret {E A} a. Arguments Rd {E A} x k. Arguments Wr {E A} x v p.
Arguments val : clear implicits. Arguments prog : clear implicits. Arguments mem : clear implicits. Arguments thread : clear implicits. Arguments state : clear implicits. Arguments env : clear implicits.
