(** Model of the Bloch Hamiltonians of primitive cells: cython/primitive.pyx
    and builder/primitive.py:811-879.  Energies are exact complex numbers. *)
From Verif Require Import Prelude Vec M_hop M_pc M_sync.

Section Bloch.
  Context {E T W L : Type} {SE : Scalar E} {ST : Scalar T}.
  (** Conjugation, real energies as complex numbers, cos x + 1j * sin x, 2 pi. *)
  Context (conj : E -> E) (inj : W -> E) (cis : T -> E) (tau : T).

  (** Two-dimensional arrays. *)
  Definition matrix := Z -> Z -> E.
  Definition mzero : matrix := fun _ _ => s0.
  Definition mset (m : matrix) (i j : Z) (v : E) : matrix :=
    fun a b => if (a =? i) && (b =? j) then v else m a b.

  (** Reading outside of an array is undefined in the compiled code
      (boundscheck(False)); here it is an error, shown never to happen. *)
  Definition aread {A} (l : list A) (i : Z) : res A :=
    if i <? 0 then Err IndexError
    else match nth_error l (Z.to_nat i) with Some x => Ok x | None => Err IndexError end.

  (** primitive.pyx:60-62: on-site energies. *)
  Definition set_onsite (eng : list W) (m : matrix) : matrix :=
    fold_left (fun m (q : Z * W) => mset m (fst q) (fst q) (inj (snd q))) (combine (zrange (length eng)) eng) m.

  (** primitive.pyx:70-77: k_dot_r. *)
  Definition k_dot_r (conv : Z) (k : vec T) (pos : list (vec T)) (rn : rn3) (i j : Z) : res T :=
    let '(k0, k1, k2) := k in let '(ra, rb, rc) := rn in
    if conv =? 1 then
      bind (aread pos j) (fun pj => bind (aread pos i) (fun pi =>
        let '(x, y, z) := pj in let '(u, v, w) := pi in
        Ok (sadd (sadd (smul k0 (ssub (sadd (sZ ra) x) u)) (smul k1 (ssub (sadd (sZ rb) y) v)))
                 (smul k2 (ssub (sadd (sZ rc) z) w)))))
    else Ok (sadd (sadd (smul k0 (sZ ra)) (smul k1 (sZ rb))) (smul k2 (sZ rc))).

  (** primitive.pyx:65-84: one hopping term. *)
  Definition add_term (conv : Z) (k : vec T) (pos : list (vec T)) (acc : res matrix) (t : rn3 * pair2 * E) : res matrix :=
    bind acc (fun m =>
      let '(rn, (i, j), e) := t in
      let n := Z.of_nat (length pos) in
      if negb ((0 <=? i) && (i <? n) && (0 <=? j) && (j <? n)) then Err IndexError else
      bind (k_dot_r conv k pos rn i j) (fun x =>
        let hij := smul e (cis (smul tau x)) in
        let m1 := mset m i j (sadd (m i j) hij) in
        Ok (mset m1 j i (sadd (m1 j i) (conj hij))))).

  (** primitive.pyx:20-84 set_ham. *)
  Definition set_ham (pos : list (vec T)) (eng : list W) (terms : list (rn3 * pair2 * E)) (conv : Z) (k : vec T)
             (m : matrix) : res matrix :=
    fold_left (add_term conv k pos) terms (Ok (set_onsite eng m)).

  (** primitive.py:833-836 and 859-862: checks. *)
  Definition ham_check (s : cached E T W L) (conv : Z) : res unit :=
    if negb ((conv =? 1) || (conv =? 2)) then Err ValueError
    else if num_orb (c_pc s) =? 0 then Err PCOrbEmptyError
    else if (num_hop (hop (c_pc s)) =? 0)%nat then Err PCHopEmptyError
    else Ok tt.

  (** primitive.py:811-836 set_ham_dense. *)
  Definition set_ham_dense (s : cached E T W L) (k : vec T) (conv : Z) (m : matrix) : res matrix :=
    bind (ham_check s conv) (fun _ =>
      set_ham (map fst (c_orb s)) (map snd (c_orb s)) (c_hop s) conv k m).

  (** primitive.py:868-876: dr as a numpy vector, np.dot, dok_matrix item. *)
  Definition csr_term (conv : Z) (k : vec T) (pos : list (vec T)) (n : Z) (acc : res matrix) (t : rn3 * pair2 * E) : res matrix :=
    bind acc (fun m =>
      let '(rn, (i, j), e) := t in
      bind (if conv =? 1 then
              match py_nth pos j, py_nth pos i with
              | Some pj, Some pi => Ok (vadd (vsub pj pi) (vZ rn))
              | _, _ => Err IndexError
              end
            else Ok (vZ rn)) (fun dr =>
        let '(k0, k1, k2) := k in let '(x, y, z) := dr in
        if negb ((0 <=? i) && (i <? n) && (0 <=? j) && (j <? n)) then Err IndexError else
        let x := smul tau (sadd (sadd (smul k0 x) (smul k1 y)) (smul k2 z)) in
        Ok (mset m i j (sadd (m i j) (smul (cis x) e))))).

  (** primitive.py:838-879 set_ham_csr; sparse matrices are given by their
      values (scipy's sum, getH and conversions are external). *)
  Definition set_ham_csr (s : cached E T W L) (k : vec T) (conv : Z) : res matrix :=
    bind (ham_check s conv) (fun _ =>
      let n := num_orb (c_pc s) in
      let dia : matrix := fun a b =>
        if (a =? b) && (0 <=? a) && (a <? n) then
          match nth_error (map snd (c_orb s)) (Z.to_nat a) with Some w => inj w | None => s0 end
        else s0 in
      bind (fold_left (csr_term conv k (map fst (c_orb s)) n) (flatten (hop (c_pc s))) (Ok mzero)) (fun half =>
        Ok (fun a b => sadd (sadd (dia a b) (half a b)) (conj (half b a))))).
End Bloch.
