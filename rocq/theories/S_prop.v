(** Specification of sparse products, Chebyshev series and the Haydock
    recursion on vectors nat -> E of n entries.  No model definitions. *)
From Verif Require Import Prelude Vec Cx.

Section Spec.
  Context {E : Type} {SE : Scalar E} (conj : E -> E) (img : E).
  Notation vector := (nat -> E).
  Definition sum_to (n : nat) (f : nat -> E) : E := esum (map f (seq 0 n)).
  (** The list holds the n entries of the vector. *)
  Definition holds (n : nat) (x : vector) (l : list E) : Prop :=
    length l = n /\ forall i, (i < n)%nat -> nth_error l i = Some (x i).

  (** Matrix of the compressed rows; repeated columns are added up. *)
  Definition cell (indptr indices : list Z) (values : list E) (i k : nat) : E :=
    match nth_error indptr i, nth_error indptr (S i) with
    | Some a, Some b =>
      esum (map (fun p => if nth p indices (-1) =? Z.of_nat k then nth p values s0 else s0)
                (seq (Z.to_nat a) (Z.to_nat b - Z.to_nat a)))
    | _, _ => s0
    end.
  Definition csr_ok (n : nat) (indptr indices : list Z) (values : list E) : Prop :=
    length indptr = S n /\ length values = length indices /\
    (forall i a b, nth_error indptr i = Some a -> nth_error indptr (S i) = Some b ->
       0 <= a <= b /\ b <= Z.of_nat (length indices)) /\
    (forall k, In k indices -> 0 <= k < Z.of_nat n).

  Definition mv (n : nat) (h : nat -> nat -> E) (x : vector) : vector := fun i => sum_to n (fun k => smul (h i k) (x k)).
  Definition inner (n : nat) (x y : vector) : E := sum_to n (fun i => smul (conj (x i)) (y i)).
  Definition herm (n : nat) (h : nat -> nat -> E) : Prop := forall i j, (i < n)%nat -> (j < n)%nat -> h i j = conj (h j i).

  (** T_k(H) x: T_0 = 1, T_1 = H, T_(k+2) = 2 H T_(k+1) - T_k. *)
  Fixpoint cheb (n : nat) (h : nat -> nat -> E) (k : nat) (x : vector) : vector :=
    match k with
    | O => x
    | S k1 => match k1 with
              | O => mv n h x
              | S k2 => fun i => ssub (smul (sZ 2) (mv n h (cheb n h k1 x) i)) (cheb n h k2 x i)
              end
    end.
  Fixpoint pow (a : E) (k : nat) : E := match k with O => s1 | S k => smul a (pow a k) end.
  (** sum_k c_k T_k(H) x *)
  Definition series (n : nat) (h : nat -> nat -> E) (c : nat -> E) (len : nat) (x : vector) : vector :=
    fun i => sum_to len (fun k => smul (c k) (cheb n h k x i)).
  (** Coefficients of exp(-+ i t H) = J_0 + 2 sum_k (-+ i)^k J_k T_k(H). *)
  Definition evol (fwd : bool) (bes : list E) (k : nat) : E :=
    smul (smul (match k with O => s1 | _ => sZ 2 end) (pow (if fwd then sopp img else img) k)) (nth k bes s0).
  Definition iter (step : vector -> vector) (t : nat) (x : vector) : vector := Nat.iter t step x.
End Spec.
(** The Chebyshev polynomial T_k at a number. *)
Fixpoint cheb_val {E} {SE : Scalar E} (a : E) (k : nat) : E :=
  match k with
  | O => s1
  | S k1 => match k1 with O => a | S k2 => ssub (smul (sZ 2) (smul a (cheb_val a k1))) (cheb_val a k2) end
  end.
