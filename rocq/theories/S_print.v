(** Specification of a printed formula: what Python makes of it.  A recursive
    descent evaluator for the grammar
      sum   := term (('+' | '-') term)*
      term  := factor ('*' factor)*
      factor := ('+' | '-') factor | atom
      atom  := number | name | exp_i '(' sum ')' | '(' sum ')' | ham[i, j] [.conjugate()]
    in an environment of the k-point and the present matrix. *)
From Coq Require Import Reals.
From Verif Require Import Prelude Vec Cx M_print.
Local Open Scope Z_scope.

Section Eval.
  Context (k : R * R * R) (ham : Z -> Z -> Cplx).
  Definition k_val (a : nat) : R := let '(x, y, z) := k in match a with O => x | S O => y | _ => z end.
  (** exp_i(x) := cos(2 * pi * x) + 1j * sin(2 * pi * x) *)
  Definition exp_i (x : Cplx) : Cplx := (cos (2 * PI * fst x), sin (2 * PI * fst x)).

  Notation result := (option (Cplx * list tok)).
  Fixpoint p_sum (n : nat) (ts : list tok) {struct n} : result :=
    match n with O => None | S n =>
      match p_term n ts with Some (v, r) => p_add n v r | None => None end end
  with p_add (n : nat) (acc : Cplx) (ts : list tok) {struct n} : result :=
    match n with O => None | S n =>
      match ts with
      | TAdd :: r => match p_term n r with Some (v, r') => p_add n (Cadd acc v) r' | None => None end
      | TSub :: r => match p_term n r with Some (v, r') => p_add n (Csub acc v) r' | None => None end
      | _ => Some (acc, ts)
      end end
  with p_term (n : nat) (ts : list tok) {struct n} : result :=
    match n with O => None | S n =>
      match p_factor n ts with Some (v, r) => p_mul n v r | None => None end end
  with p_mul (n : nat) (acc : Cplx) (ts : list tok) {struct n} : result :=
    match n with O => None | S n =>
      match ts with
      | TMul :: r => match p_factor n r with Some (v, r') => p_mul n (Cmul acc v) r' | None => None end
      | _ => Some (acc, ts)
      end end
  with p_factor (n : nat) (ts : list tok) {struct n} : result :=
    match n with O => None | S n =>
      match ts with
      | TSub :: r => match p_factor n r with Some (v, r') => Some (Copp v, r') | None => None end
      | TAdd :: r => p_factor n r
      | _ => p_atom n ts
      end end
  with p_atom (n : nat) (ts : list tok) {struct n} : result :=
    match n with O => None | S n =>
      match ts with
      | TNum z :: r => Some (z, r)
      | TName a :: r => Some (Cre (k_val a), r)
      | TExp :: TLpar :: r => match p_sum n r with Some (v, TRpar :: r') => Some (exp_i v, r') | _ => None end
      | TLpar :: r => match p_sum n r with Some (v, TRpar :: r') => Some (v, r') | _ => None end
      | THam i j :: TConj :: r => Some (Cconj (ham i j), r)
      | THam i j :: r => Some (ham i j, r)
      | _ => None
      end end.

  (** The text is one expression with this value (the number limits the depth
      of the evaluation; all large enough ones agree). *)
  Definition reads (ts : list tok) (v : Cplx) : Prop := exists n, forall m, (n <= m)%nat -> p_sum m ts = Some (v, []).
End Eval.

(** Executing the assignments one after the other. *)
Inductive executes (k : R * R * R) : (Z -> Z -> Cplx) -> list line -> (Z -> Z -> Cplx) -> Prop :=
| ex_nil ham : executes k ham [] ham
| ex_cons ham i j ts v rest ham' :
    reads k ham ts v ->
    executes k (fun a b => if (a =? i) && (b =? j) then v else ham a b) rest ham' ->
    executes k ham (((i, j), ts) :: rest) ham'.

(** Displacements which the format does not round: no component is nonzero and
    within 1e-5 of 0, or different from 1 and -1 and within 1e-5 of them. *)
Definition clean1 (d : R) : Prop :=
  (Rabs d <= 1 / 100000 -> d = 0)%R /\ (Rabs (Rabs d - 1) <= 1 / 100000 -> Rabs d = 1)%R.
Definition clean (d : R * R * R) : Prop := let '(x, y, z) := d in clean1 x /\ clean1 y /\ clean1 z.
