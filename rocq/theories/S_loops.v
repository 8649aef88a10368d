(** What the parallel loops of the Fortran extension must leave in memory, as
    formulas without loops, threads or order of execution. *)
From Coq Require Import String List Permutation.
From Verif Require Import Prelude Vec Cx M_omp.
Import ListNotations.
Local Open Scope string_scope.
Local Open Scope list_scope.
Local Open Scope Z_scope.

Section Spec.
  Context {E : Type} {SE : Scalar E}.
  Context (conj re : E -> E) (div : E -> E -> E) (sqrt : E -> E).

  (** ** Independence of threads *)
  (** New contents of memory: [F] where defined, the old contents elsewhere. *)
  Definition patch (m0 : mem E) (F : string -> list Z -> option E) (x : loc) : val E :=
    match x with
    | Var _ => m0 x
    | Arr a idx => match F a idx with Some e => N e | None => m0 x end
    end.
  (** Any number of threads, any distribution of the iterations over them (in
      any order), any private values before the loop, any interleaving. *)
  Definition loop_gives (ps : list string) (lv : string) (body : prog E unit) (lo hi : Z) (m0 : mem E) (F : string -> list Z -> option E) : Prop :=
    forall plan undef sched m ts, Permutation (concat plan) (range lo hi) -> List.length undef = List.length plan ->
    run ps sched (launch lv body plan undef m0) = (m, ts) -> done (m, ts) -> forall x, m x = patch m0 F x.
  (** REDUCTION(+: r): the copies start at zero and are added to r. *)
  Definition reduced (r : string) (m : mem E) (ts : list (thread E)) : E :=
    sadd (toE (m (Var r))) (esum (map (fun t => toE (priv t r)) ts)).
  Definition loop_sums (ps : list string) (lv : string) (body : prog E unit) (lo hi : Z) (r : string) (m0 : mem E) (total : E) : Prop :=
    forall plan undef sched m ts, Permutation (concat plan) (range lo hi) -> List.length undef = List.length plan ->
    Forall (fun e : env E => e r = N s0) undef ->
    run ps sched (launch lv body plan undef m0) = (m, ts) -> done (m, ts) -> (forall x, m x = m0 x) /\ reduced r m ts = total.

  (** ** Contents *)
  Definition within (lo hi i : Z) : bool := (lo <=? i) && (i <=? hi).
  Definition vec (lo hi : Z) (f : Z -> E) (idx : list Z) : option E :=
    match idx with [i] => if within lo hi i then Some (f i) else None | _ => None end.
  Definition mat (lo hi lo' hi' : Z) (f : Z -> Z -> E) (idx : list Z) : option E :=
    match idx with [i; j] => if within lo hi i && within lo' hi' j then Some (f i j) else None | _ => None end.
  Definition cube (n n' : Z) (lo hi : Z) (f : Z -> Z -> Z -> option E) (idx : list Z) : option E :=
    match idx with [l; j; k] => if within 1 n l && within 1 n' j && within lo hi k then f l j k else None | _ => None end.
  (** One array changes. *)
  Definition only (a : string) (f : list Z -> option E) (b : string) (idx : list Z) : option E := if String.eqb b a then f idx else None.
  Definition both (F G : string -> list Z -> option E) (b : string) (idx : list Z) : option E :=
    match F b idx with Some e => Some e | None => G b idx end.
  (** Values before the loop. *)
  Definition num (m : mem E) (a : string) (i : Z) : E := toE (m (Arr a [i])).
  Definition num2 (m : mem E) (a : string) (i j : Z) : E := toE (m (Arr a [i; j])).
  Definition num3 (m : mem E) (a : string) (i j k : Z) : E := toE (m (Arr a [i; j; k])).
  Definition real (m : mem E) (x : string) : E := toE (m (Var x)).
  Definition int (m : mem E) (x : string) : Z := toZ (m (Var x)).
  Definition ind (m : mem E) (a : string) (i : Z) : Z := toZ (m (Arr a [i])).
  Definition sum_over (lo hi : Z) (f : Z -> E) : E := esum (map f (range lo hi)).

  (** Sparse matrix times vector: row i, entries j. *)
  Definition csr_sum (m : mem E) (i : Z) : E :=
    sum_over (ind m "indptr" i + 1) (ind m "indptr" (i + 1)) (fun j => smul (num m "values" j) (num m "in" (ind m "indices" j + 1))).
  (** a H in + (out or b out) *)
  Definition csr_value (a b : bool) (m : mem E) (i : Z) : E :=
    sadd (if a then smul (real m "a") (csr_sum m i) else csr_sum m i) (if b then smul (real m "b") (num m "out" i) else num m "out" i).
  Definition dot3 (m : mem E) (a b c : E) : E := sadd (sadd (smul (num m "q_point" 1) a) (smul (num m "q_point" 2) b)) (smul (num m "q_point" 3) c).

  (** Continued fraction of depth n, from level k *)
  Fixpoint fraction (m : mem E) (z : E) (k : Z) (n : nat) : E :=
    match n with
    | O => s0
    | S n => div s1 (ssub (ssub z (num m "coefa" k)) (smul (smul (num m "coefb" k) (num m "coefb" k)) (fraction m z (k + 1) n)))
    end.

  (** Decimation in frequency: butterflies between items at distance c. *)
  Definition butterfly (tw : Z -> E -> Z -> E) (m : mem E) (c p : Z) : E :=
    let q := (p - 1) mod (2 * c) in
    if q <? c then sadd (num m "x" p) (num m "x" (p + c))
    else smul (ssub (num m "x" (p - c)) (num m "x" p)) (tw (int m "sgn") (real m "e") (q - c + 1)).

  (** Lindhard: states j at k and l at k + q *)
  Definition dp_other (m : mem E) (arb : bool) (k : Z) : Z := if arb then k else ind m "kq_map" k.
  Definition dp_eng (m : mem E) (arb : bool) (l k : Z) : E := num2 m (if arb then "eng_kq" else "eng") l (dp_other m arb k).
  Definition dp_overlap (m : mem E) (arb : bool) (l j k : Z) : E :=
    sum_over 1 (int m "num_orb") (fun b =>
      smul (smul (conj (num3 m (if arb then "wfn_kq" else "wfn") b l (dp_other m arb k))) (num3 m "wfn" b j k)) (num m "phase" b)).
  Definition dp_weight (occ : E -> E -> E -> E) (m : mem E) (arb : bool) (l j k : Z) : E :=
    smul (smul (dp_overlap m arb l j k) (conj (dp_overlap m arb l j k)))
         (ssub (occ (real m "beta") (num2 m "eng" j k) (real m "mu")) (occ (real m "beta") (dp_eng m arb l k) (real m "mu"))).
  Definition response (m : mem E) (ac : bool) (w : Z) : E :=
    sum_over (int m "k_min") (int m "k_max") (fun k => sum_over 1 (int m "num_orb") (fun j => sum_over 1 (int m "num_orb") (fun l =>
      div (num3 m "prod_df" l j k)
          (if ac then ssub (ssub (num3 m "delta_eng" l j k) (num m "omegas" w)) (real m "cdelta")
           else sadd (sadd (num3 m "delta_eng" l j k) (num m "omegas" w)) (real m "cdelta"))))).
  (** matrix element of the velocity between states a and b *)
  Definition velocity (m : mem E) (v : string) (a b k : Z) : E :=
    sum_over 1 (int m "num_orb") (fun x => sum_over 1 (int m "num_orb") (fun y =>
      smul (smul (conj (num3 m "wfn" x a k)) (num2 m v x y)) (num3 m "wfn" y b k))).
  Definition ac_weight (occ : E -> E -> E -> E) (m : mem E) (n l k : Z) : E :=
    let f s := occ (real m "beta") (num2 m "eng" s k) (real m "mu") in
    div (smul (smul (velocity m "vmat1" n l k) (velocity m "vmat2" l n k)) (ssub (f l) (f n))) (ssub (num2 m "eng" l k) (num2 m "eng" n k)).
End Spec.
