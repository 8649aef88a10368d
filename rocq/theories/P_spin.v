(** C45: spin textures. *)
From Coq Require Import String.
From Verif Require Import Prelude Vec Cx L_base L_gersh L_csr L_super L_sample L_samp2 L_par L_par2 L_lat S_spin S_par M_super M_sample M_par M_spin.
From Coq Require Import Reals Lra Permutation.

(** ** Expectation values *)
Definition comp_of (s : string) : axis := if String.eqb s "x" then Sx else if String.eqb s "y" then Sy else Sz.
Lemma nth_every {A} (d : A) : forall k l i, (length l <= k)%nat -> nth i (every_other l) d = nth (2 * i) l d.
Proof.
  induction k as [|k IH]; intros [|x [|y l]] i Hk; cbn [length] in Hk; try lia; cbn [every_other].
  1,2: destruct i; cbn; [reflexivity|]; destruct (i + S (i + 0))%nat; reflexivity.
  1: destruct i; cbn; [reflexivity|]; rewrite Nat.add_succ_r; destruct i; reflexivity.
  destruct i as [|i]; [reflexivity|]. cbn [nth]. rewrite IH by lia. replace (2 * S i)%nat with (S (S (2 * i))) by lia. reflexivity.
Qed.
Lemma len_every {A} : forall n (l : list A), length l = (2 * n)%nat -> length (every_other l) = n /\ length (every_other (tl l)) = n.
Proof.
  induction n as [|n IH]; intros [|x [|y l]] Hl; cbn [length] in Hl; try lia; [split; reflexivity|].
  destruct (IH l ltac:(lia)) as (h1 & h2). cbn [every_other tl]. split; [cbn [length]; rewrite h1; reflexivity|].
  destruct l as [|z l]; [cbn in *; lia|]. cbn [every_other length tl] in *. rewrite h2. reflexivity.
Qed.
Lemma split_ok major n psi : length psi = (2 * n)%nat ->
  split_spin major (2 * Z.of_nat n) psi = (map (fun i => amp major n psi i false) (seq 0 n), map (fun i => amp major n psi i true) (seq 0 n)).
Proof.
  intros Hl. unfold split_spin. replace (Z.to_nat (2 * Z.of_nat n / 2)) with n by (rewrite Z.mul_comm, Z.div_mul by lia; lia).
  assert (Hm : forall (f : nat -> Cplx) l, length l = n -> (forall i, (i < n)%nat -> nth i l (0, 0)%R = f i) -> l = map f (seq 0 n)).
  { intros f l H1 H2. apply nth_ext with (d := (0, 0)%R) (d' := f 0%nat); [rewrite map_length, seq_length; exact H1|]. intros i Hi. rewrite map_nth, seq_nth by lia. apply H2. lia. }
  destruct major; f_equal; apply Hm.
  - rewrite firstn_length. lia.
  - intros i Hi. unfold amp. rewrite Nat.add_0_r. rewrite <- (firstn_skipn n psi) at 2. rewrite app_nth1; [reflexivity|]. rewrite firstn_length. lia.
  - rewrite skipn_length. lia.
  - intros i Hi. unfold amp. rewrite <- (firstn_skipn n psi) at 2. rewrite app_nth2; rewrite firstn_length, Nat.min_l by lia; [|lia]. f_equal. lia.
  - apply (len_every n psi Hl).
  - intros i Hi. unfold amp. rewrite (nth_every _ (length psi) psi i (le_n _)). f_equal. lia.
  - apply (len_every n psi Hl).
  - intros i Hi. unfold amp. rewrite (nth_every _ (length (tl psi)) (tl psi) i (le_n _)). destruct psi as [|x psi]; cbn [tl]; [cbn [length] in Hl; lia|].
    replace (2 * i + 1)%nat with (S (2 * i)) by lia. reflexivity.
Qed.
Lemma vdot_map (f g : nat -> Cplx) l : vdot (map f l) (map g l) = Ok (esum (map (fun i => Cmul (Cconj (f i)) (g i)) l)).
Proof.
  unfold vdot. rewrite !map_length, Nat.eqb_refl. do 2 f_equal. induction l as [|x l IH]; [reflexivity|]. cbn [map combine fst snd]. rewrite IH. reflexivity.
Qed.
Ltac crw := apply Ceq; cbn [fst snd Cadd Csub Cmul Copp Cconj Cre s0 s1 sadd smul ssub sopp CScalar RScalar pauli].
Lemma expect_spin c n a : expect c (map (fun i => a i false) (seq 0 n)) (map (fun i => a i true) (seq 0 n)) = Ok (spin (comp_of c) n a).
Proof.
  unfold expect, comp_of, spin, total. destruct (String.eqb c "x"); [|destruct (String.eqb c "y")]; rewrite !vdot_map; cbn [bind]; f_equal;
  generalize (seq 0 n) as l; induction l as [|i l IH]; cbn [map fst snd] in *; rewrite ?esum_cons, ?esum_nil; [crw; ring| |crw; ring| |crw; ring|];
  rewrite <- IH; rewrite ?esum_cons, ?esum_nil; cbn [fst snd]; crw; ring.
Qed.
Definition site (c : axis) (a : nat -> bool -> Cplx) (i : nat) : Cplx :=
  esum (map (fun ss => Cmul (Cmul (Cconj (a i (fst ss))) (pauli c (fst ss) (snd ss))) (a i (snd ss))) [(false, false); (false, true); (true, false); (true, true)]).
Lemma spin_site c n a : spin c n a = esum (map (site c a) (seq 0 n)). Proof. reflexivity. Qed.
Lemma spin_real c n a : snd (spin c n a) = 0%R.
Proof.
  rewrite spin_site. generalize (seq 0 n) as l. induction l as [|i l IH]; cbn [map]; rewrite ?esum_cons, ?esum_nil; [reflexivity|].
  cbn [snd sadd CScalar Cadd]. rewrite IH. unfold site. destruct c; cbn [fst snd map esum fold_right sadd CScalar RScalar Cadd Cmul Cconj Cre pauli s0]; ring.
Qed.
(** The operation [.real] drops nothing: the value is the expectation value of
    the Pauli matrix. *)
Theorem C45_expectation : forall c major n psi, length psi = (2 * n)%nat ->
  exists u d, split_spin major (2 * Z.of_nat n) psi = (u, d) /\ expect c u d = Ok (spin (comp_of c) n (amp major n psi)) /\ snd (spin (comp_of c) n (amp major n psi)) = 0%R.
Proof.
  intros c major n psi Hl. rewrite (split_ok major n psi Hl). eexists _, _. split; [reflexivity|]. split; [apply (expect_spin c n (amp major n psi))|apply spin_real].
Qed.
(** Both layouts of the same amplitudes give the same value. *)
Theorem C45_layouts : forall c n psi psi', (forall i s, (i < n)%nat -> amp true n psi i s = amp false n psi' i s) ->
  spin c n (amp true n psi) = spin c n (amp false n psi').
Proof.
  intros c n psi psi' H. unfold spin, total. f_equal. apply map_ext_in. intros i Hi. apply in_seq in Hi. f_equal. apply map_ext. intros [s s']. rewrite !H by lia. reflexivity.
Qed.
Definition sq (z : Cplx) : R := (fst z * fst z + snd z * snd z)%R.
Definition rtot (n : nat) (f : nat -> R) : R := fold_right Rplus 0%R (map f (seq 0 n)).
Lemma spin_bound n a : let P c := fst (spin c n a) in let N := rtot n (fun i => (sq (a i false) + sq (a i true))%R) in
  (0 <= N /\ P Sx * P Sx + P Sy * P Sy + P Sz * P Sz <= N * N)%R.
Proof.
  cbv beta zeta. rewrite !spin_site. unfold rtot. generalize (seq 0 n) as l. induction l as [|i l IH]; cbn [map fold_right]; rewrite ?esum_cons, ?esum_nil.
  - cbn. lra.
  - destruct IH as (IN & IH). set (N := fold_right Rplus 0%R (map _ l)) in *.
    set (px := fst (esum (map (site Sx a) l))) in *. set (py := fst (esum (map (site Sy a) l))) in *. set (pz := fst (esum (map (site Sz a) l))) in *.
    cbn [fst snd sadd CScalar Cadd]. fold px py pz. unfold sq, site.
    destruct (a i false) as [ur ui] eqn:Eu, (a i true) as [dr di] eqn:Ed. cbn [fst snd map esum fold_right sadd CScalar RScalar Cadd Cmul Cconj Cre pauli s0]. rewrite Eu, Ed. cbn [fst snd].
    set (qx := (2 * (ur * dr + ui * di))%R). set (qy := (2 * (ur * di - ui * dr))%R). set (qz := (ur * ur + ui * ui - dr * dr - di * di)%R). set (m := (ur * ur + ui * ui + (dr * dr + di * di))%R).
    assert (Hm : (0 <= m)%R) by (unfold m; nra). assert (Hq : (qx * qx + qy * qy + qz * qz = m * m)%R) by (unfold qx, qy, qz, m; ring).
    split; [lra|].
    assert (Hcs : (px * qx + py * qy + pz * qz <= N * m)%R).
    { apply Rle_sq; [apply Rmult_le_pos; assumption|].
      assert (0 <= (px * qy - py * qx)^2 + (px * qz - pz * qx)^2 + (py * qz - pz * qy)^2)%R by (repeat apply Rplus_le_le_0_compat; apply pow2_ge_0).
      apply Rle_trans with ((px * px + py * py + pz * pz) * (m * m))%R; [rewrite <- Hq; nra|]. replace (N * m * (N * m))%R with (N * N * (m * m))%R by ring. apply Rmult_le_compat_r; [apply Rle_0_sqr|exact IH]. }
    match goal with |- (?A * ?A + ?B * ?B + ?C * ?C <= _)%R => replace A with (qx + px)%R by (unfold qx; ring); replace B with (qy + py)%R by (unfold qy; ring); replace C with (qz + pz)%R by (unfold qz; ring) end.
    nra.
Qed.
Lemma norm2_app l l' : norm2 (l ++ l') = (norm2 l + norm2 l')%R.
Proof. unfold norm2. induction l as [|x l IH]; cbn [app fold_right]; [ring|]. rewrite IH. ring. Qed.
Lemma norm2_every : forall k l, (length l <= k)%nat -> norm2 l = (norm2 (every_other l) + norm2 (every_other (tl l)))%R.
Proof.
  induction k as [|k IH]; intros [|x [|y l]] Hk; cbn [length] in Hk; try lia; try (cbn; ring). cbn [every_other tl].
  replace (norm2 (y :: match l with [] => [] | _ :: r' => every_other r' end)) with (norm2 [y] + norm2 (every_other (tl l)))%R by (destruct l; cbn; ring).
  unfold norm2 at 1 2 3. cbn [fold_right]. fold (norm2 l) (norm2 (every_other l)). rewrite (IH l ltac:(unfold Cplx in *; lia)). ring.
Qed.
Lemma norm2_map (f : nat -> Cplx) l : norm2 (map f l) = fold_right Rplus 0%R (map (fun i => sq (f i)) l).
Proof. induction l as [|x l IH]; [reflexivity|]. cbn [map]. unfold norm2 in *. cbn [fold_right]. rewrite IH. reflexivity. Qed.
Lemma norm_split major n psi : length psi = (2 * n)%nat -> norm2 psi = rtot n (fun i => (sq (amp major n psi i false) + sq (amp major n psi i true))%R).
Proof.
  intros Hl. assert (H : norm2 psi = (norm2 (fst (split_spin major (2 * Z.of_nat n) psi)) + norm2 (snd (split_spin major (2 * Z.of_nat n) psi)))%R).
  { unfold split_spin. destruct major; cbn [fst snd]; [|apply (norm2_every (length psi) psi (le_n _))]. rewrite <- norm2_app, firstn_skipn. reflexivity. }
  rewrite H, (split_ok major n psi Hl). cbn [fst snd]. rewrite !norm2_map. unfold rtot. clear. generalize (seq 0 n) as l. induction l as [|x l IH]; cbn [map fold_right]; [ring|]. rewrite <- IH. ring.
Qed.
(** The spin vector is not longer than the norm of the state. *)
Theorem C45_bound : forall major n psi, length psi = (2 * n)%nat ->
  let p c := fst (spin c n (amp major n psi)) in
  (p Sx * p Sx + p Sy * p Sy + p Sz * p Sz <= norm2 psi * norm2 psi /\ forall c, Rabs (p c) <= norm2 psi)%R.
Proof.
  intros major n psi Hl p. destruct (spin_bound n (amp major n psi)) as (H0 & H1). rewrite <- (norm_split major n psi Hl) in H0, H1. change (p Sx * p Sx + p Sy * p Sy + p Sz * p Sz <= norm2 psi * norm2 psi)%R in H1. clearbody p. split; [exact H1|].
  intros c. apply Rabs_le. assert (Hc : (p c * p c <= norm2 psi * norm2 psi)%R).
  { pose proof (Rle_0_sqr (p Sx)); pose proof (Rle_0_sqr (p Sy)); pose proof (Rle_0_sqr (p Sz)). unfold Rsqr in *. destruct c; lra. }
  split; [|apply Rle_sq; assumption]. assert (- p c <= norm2 psi)%R; [|lra]. apply Rle_sq; [assumption|]. lra.
Qed.
Print Assumptions C45_expectation.
Print Assumptions C45_layouts.
Print Assumptions C45_bound.
(** A state of two orbitals: up on the first, equal mixture on the second. *)
Example C45_bound_example :
  let psi := [(1, 0); (1, 0); (0, 0); (0, 1)]%R in let psi' := [(1, 0); (0, 0); (1, 0); (0, 1)]%R in
  (forall i s, (i < 2)%nat -> amp true 2 psi i s = amp false 2 psi' i s) /\ spin Sz 2 (amp true 2 psi) = (1, 0)%R /\ spin Sy 2 (amp true 2 psi) = (2, 0)%R /\ norm2 psi = 3%R.
Proof.
  cbv zeta. split; [intros [|[|i]] [] Hi; try lia; reflexivity|]. rewrite !spin_site. unfold norm2. split; [|split]; [crw| crw|]; cbn; ring.
Qed.

Lemma mapM_enum {A B} (F : Z * A -> res B) (G : A -> B) l : (forall k x, nth_error l k = Some x -> F (Z.of_nat k, x) = Ok (G x)) -> mapM F (enum l) = Ok (map G l).
Proof.
  unfold enum, zrange. assert (Hg : forall l o, (forall k x, nth_error l k = Some x -> F (Z.of_nat (o + k), x) = Ok (G x)) -> mapM F (combine (map Z.of_nat (seq o (length l))) l) = Ok (map G l)).
  { clear. induction l as [|x l IH]; intros o Hx; [reflexivity|]. cbn [length seq map combine mapM]. pose proof (Hx 0%nat x eq_refl) as H0. rewrite Nat.add_0_r in H0. rewrite H0. cbn [bind].
    rewrite (IH (S o)); [reflexivity|]. intros k y Hy. replace (S o + k)%nat with (o + S k)%nat by lia. apply Hx. exact Hy. }
  intros Hx. apply (Hg l 0%nat). exact Hx.
Qed.
Lemma mapM_ranks {B} (f : Z -> res B) n gs : mapM f (zrange n) = Ok gs -> forall k x, nth_error gs k = Some x -> f (Z.of_nat k) = Ok x.
Proof.
  intros Hm k x Hk. apply mapM_inv in Hm. assert (Hl : length (zrange n) = length gs) by (clear - Hm; induction Hm; cbn; congruence). rewrite length_zrange in Hl.
  assert (Hz : nth_error (zrange n) k = Some (Z.of_nat k)).
  { rewrite nth_error_zrange. assert (k < length gs)%nat by (apply nth_error_Some; congruence). replace (k <? n)%nat with true by lia. reflexivity. }
  destruct (Forall2_nth _ _ _ _ _ Hm Hz) as (y & Hy & Hf). congruence.
Qed.
(** ** Histories *)
Section Hist.
  Context {Md H : Type} (solve : Md -> vec R -> res (list R * list (list Cplx))) (num_orb : Md -> Z)
          (hash : list (vec R) -> H) (heqb : H -> H -> bool).
  Context (mpi : bool) (size : Z) (Hsize : 0 < size) (Hmpi : mpi = true \/ size = 1).
  Notation eval := (eval solve num_orb hash heqb mpi size).
  Notation run := (run solve num_orb hash heqb mpi size).
  Notation get_states := (get_states solve num_orb mpi size).
  Notation new_tex := (@new_tex Md H).

  Definition values (c : string) (s : @tex Md H) (st : states) : res (list (arr (Z * Z) R)) :=
    bind (mapM (fun ra => eval_local num_orb size c s st (fst ra) (snd ra)) (enum (entries st))) (fun ls => Ok (all_reduce mpi ls)).
  Lemma values_same c (s s' : @tex Md H) st : t_grid s = t_grid s' -> t_model s = t_model s' -> t_major s = t_major s' -> values c s st = values c s' st.
  Proof. intros h1 h2 h3. unfold values, eval_local. rewrite h1, h2, h3. reflexivity. Qed.
  Lemma eval_fresh c m g major st : get_states m g = Ok st -> snd (eval c (new_tex m g major)) = values c (new_tex m g major) st.
  Proof. intros Hg. unfold M_spin.eval, update_states. cbn [t_hash M_spin.new_tex t_model t_grid t_major]. rewrite Hg. cbn [snd bind t_states]. apply values_same; reflexivity. Qed.

  (** All processes hold the expectation values of all states. *)
  Theorem C45_eval : forall c m g major n eig vecs, num_orb m = 2 * Z.of_nat n ->
    solved (solve m) g (num_orb m) (num_orb m) eig vecs ->
    exists out, snd (eval c (new_tex m g major)) = Ok out /\ length out = Z.to_nat size /\
      forall p, In p out -> forall i j, (i < length g)%nat -> (j < 2 * n)%nat ->
        p (Z.of_nat i, Z.of_nat j) = fst (spin (comp_of c) n (amp major n (nth j (vecs i) []))).
  Proof.
    intros c m g major n eig vecs Hn Hs.
    set (r := fun i => match state_rows (solve m) g (num_orb m) (num_orb m) i with Ok r => r | Err _ => (fun _ => s0, fun _ => s0) end).
    assert (Hr : forall i, 0 <= i < Z.of_nat (length g) -> state_rows (solve m) g (num_orb m) (num_orb m) i = Ok (r i)).
    { intros i Hi. destruct (state_rows_ok (solve m) g (num_orb m) (num_orb m) eig vecs i Hs Hi) as (q & Hq & _). unfold r. rewrite Hq. reflexivity. }
    destruct (calc_states_rows RLaws CLaws (solve m) mpi size Hsize Hmpi g (num_orb m) (num_orb m) r Hr) as (gs & Hc & Hd & Hst & _).
    set (A := fun ks : list Z => fold_left (fun (a : arr (Z * (Z * Z)) Cplx) k => setrow a k (snd (r k))) ks zeros).
    set (st := mk_states (Z.of_nat (length g)) (num_orb m) (num_orb m) (map A gs)).
    assert (Hget : get_states m g = Ok st).
    { unfold M_spin.get_states. rewrite Hst. cbn [bind]. rewrite map_map. reflexivity. }
    rewrite (eval_fresh c m g major st Hget). unfold values.
    set (v := fun i j => fst (spin (comp_of c) n (amp major n (nth (Z.to_nat j) (vecs (Z.to_nat i)) [])))).
    set (v' := fun i j => nth (Z.to_nat j) (map (v i) (zrange (Z.to_nat (num_orb m)))) 0%R).
    assert (Hlen : length gs = Z.to_nat size).
    { destruct (dist_ranges size (Z.of_nat (length g)) ltac:(lia) Hsize) as (gs' & Hg' & Hl' & _). assert (gs' = gs) by (apply mapM_inv in Hg'; apply mapM_inv in Hd; clear - Hg' Hd; revert gs Hd; induction Hg'; intros gs Hd; inversion Hd; subst; [reflexivity|f_equal; [congruence|auto]]). congruence. }
    assert (Hmap : mapM (fun ra => eval_local num_orb size c (new_tex m g major) st (fst ra) (snd ra)) (enum (entries st)) = Ok (map (fun ks => fold_left (fun a k => setrow a k (v' k)) ks zeros) gs)).
    { assert (Hrow : forall ks i, In i ks -> 0 <= i < Z.of_nat (length g) -> eval_row c major (num_orb m) st (A ks) i = Ok (v' i)).
      { intros ks i Hi Hb. unfold eval_row. rewrite (mapM_ok _ (v i)).
        - cbn [bind]. reflexivity.
        - intros j Hj. apply In_zrange in Hj. rewrite Z2Nat.id in Hj by lia. unfold state_at. cbn [sh_k sh_b sh_o st]. replace (i <? Z.of_nat (length g)) with true by lia. replace (j <? num_orb m) with true by lia. cbn [andb bind].
          destruct (nth_error g (Z.to_nat i)) as [k|] eqn:Hk; [|apply nth_error_None in Hk; lia]. destruct (Hs _ _ Hk) as (_ & _ & Hv & Hst').
          assert (Hrow : map (fun o => A ks (i, (j, o))) (zrange (Z.to_nat (num_orb m))) = nth (Z.to_nat j) (vecs (Z.to_nat i)) []).
          { assert (Hlst : Z.of_nat (length (nth (Z.to_nat j) (vecs (Z.to_nat i)) [])) = num_orb m) by (apply Hst', nth_In; lia).
            apply nth_ext with (d := s0) (d' := s0); [rewrite map_length, length_zrange; lia|]. intros o Ho. rewrite map_length, length_zrange in Ho.
            rewrite (nth_indep _ s0 (A ks (i, (j, 0)))) by (rewrite map_length, length_zrange; exact Ho). rewrite (map_nth (fun o => A ks (i, (j, o))) (zrange (Z.to_nat (num_orb m))) 0 o).
            rewrite (nth_error_nth (zrange (Z.to_nat (num_orb m))) o 0 (x := Z.of_nat o)) by (rewrite nth_error_zrange; replace (o <? Z.to_nat (num_orb m))%nat with true by lia; reflexivity). unfold A. rewrite fill_at.
            replace (zmem i ks) with true by (symmetry; apply zmem_In; exact Hi). unfold r.
            destruct (state_rows_ok (solve m) g (num_orb m) (num_orb m) eig vecs i Hs Hb) as (q & -> & _ & Hq). rewrite Hq by lia. rewrite Nat2Z.id. reflexivity. }
          rewrite Hrow. assert (Hlp : length (nth (Z.to_nat j) (vecs (Z.to_nat i)) []) = (2 * n)%nat).
          { assert (Z.of_nat (length (nth (Z.to_nat j) (vecs (Z.to_nat i)) [])) = num_orb m) by (apply Hst', nth_In; lia). lia. }
          destruct (C45_expectation c major n _ Hlp) as (u & d & Hsp & He & _). rewrite Hn, Hsp, He. reflexivity. }
      cbn [entries st]. rewrite <- (map_id (map (fun ks => fold_left _ ks zeros) gs)). rewrite map_id.
      assert (He : forall (ks : list Z) k, nth_error gs k = Some ks -> eval_local num_orb size c (new_tex m g major) st (Z.of_nat k) (A ks) = Ok (fold_left (fun a k => setrow a k (v' k)) ks zeros)).
      { intros ks k Hk. unfold eval_local. cbn [t_grid t_major t_model M_spin.new_tex]. rewrite (mapM_ranks _ _ _ Hd k ks Hk). cbn [bind].
        apply (loop_pure (fun ik => eval_row c major (num_orb m) st (A ks) ik) (fun x ik r => setrow x ik r) v'). intros i Hi. apply Hrow; [exact Hi|]. apply (groups_in _ gs ks); [exact Hc|eapply nth_error_In; exact Hk|exact Hi]. }
      clear - He. unfold enum. rewrite map_length. change (combine (zrange (length gs)) (map A gs)) with (combine (zrange (length gs)) (map A gs)).
      assert (Hcm : forall (l : list Z) (l' : list (list Z)), combine l (map A l') = map (fun p => (fst p, A (snd p))) (combine l l')) by (induction l; intros [|]; cbn; [reflexivity..|]; f_equal; auto).
      rewrite Hcm, mapM_map. apply (mapM_enum (fun p => eval_local num_orb size c (new_tex m g major) st (fst (fst p, A (snd p))) (snd (fst p, A (snd p))))). intros k ks Hk. cbn [fst snd]. apply He. exact Hk. }
    rewrite Hmap. cbn [bind]. set (B := map _ gs). assert (HB : length B = Z.to_nat size) by (unfold B; rewrite map_length; exact Hlen).
    eexists. split; [reflexivity|]. split; [rewrite length_all_reduce; exact HB|]. intros p Hp i j Hi Hj.
    assert (Hone : mpi = true \/ length B = 1%nat) by (destruct Hmpi as [->|h]; [left; reflexivity|right; rewrite HB, h; reflexivity]).
    rewrite (all_reduce_at RLaws mpi B p Hone Hp). unfold B. rewrite (collect RLaws v' (length g) gs (Z.of_nat i) (Z.of_nat j) Hc ltac:(lia)).
    unfold v'. rewrite Nat2Z.id. rewrite (nth_indep _ 0%R (v (Z.of_nat i) 0)) by (rewrite map_length, length_zrange; lia). rewrite (map_nth (v (Z.of_nat i))).
    rewrite (nth_error_nth (zrange (Z.to_nat (num_orb m))) j 0 (x := Z.of_nat j)) by (rewrite nth_error_zrange; replace (j <? Z.to_nat (num_orb m))%nat with true by lia; reflexivity).
    unfold v. rewrite !Nat2Z.id. reflexivity.
  Qed.

  Context (Heq : forall a b, heqb a b = true <-> a = b).
  (** What a user expects: every call of eval works on the current model and
      the current k-points, as a new object would. *)
  Fixpoint expected (major : bool) (m : Md) (g : list (vec R)) (ops : list op) : list (res (list (arr (Z * Z) R))) :=
    match ops with
    | [] => []
    | SetGrid g' :: r => expected major m g' r
    | EditModel m' :: r => expected major m' g r
    | Eval c :: r => snd (eval c (new_tex m g major)) :: expected major m g r
    end.
  (** The model is edited only before the first calculation. *)
  Definition edit_first (ops : list (@op Md)) : Prop := exists pre post, ops = pre ++ post /\
    (forall c, ~ In (Eval c) pre) /\ (forall m, ~ In (EditModel m) post).
  Definition valid (s : @tex Md H) : Prop := match t_hash s with
    | None => True
    | Some h => exists g st, h = hash g /\ get_states (t_model s) g = Ok st /\ t_states s = Some st
    end.
  Lemma eval_valid c s : (forall g g', hash g = hash g' -> g = g') -> (forall g, exists st, get_states (t_model s) g = Ok st) -> valid s ->
    let '(s', r) := eval c s in r = snd (eval c (new_tex (t_model s) (t_grid s) (t_major s))) /\
      valid s' /\ t_model s' = t_model s /\ t_grid s' = t_grid s /\ t_major s' = t_major s.
  Proof.
    intros Hinj Hget Hv. destruct (Hget (t_grid s)) as (st & Hst). rewrite (eval_fresh c _ _ _ st Hst). unfold M_spin.eval, update_states.
    destruct (t_hash s) as [h|] eqn:Eh; [destruct (heqb h (hash (t_grid s))) eqn:E|].
    - apply Heq in E. unfold valid in Hv. rewrite Eh in Hv. destruct Hv as (g & st' & -> & Hg & Hs). apply Hinj in E. subst g. rewrite Hst in Hg. injection Hg as <-.
      cbn [bind]. rewrite Hs. split; [apply values_same; reflexivity|]. split; [|auto]. unfold valid. rewrite Eh. eauto.
    - rewrite Hst. cbn [bind t_states]. split; [apply values_same; reflexivity|]. split; [|auto]. unfold valid. cbn [t_hash t_model t_states]. eauto.
    - rewrite Hst. cbn [bind t_states]. split; [apply values_same; reflexivity|]. split; [|auto]. unfold valid. cbn [t_hash t_model t_states]. eauto.
  Qed.
  (** With a hash that tells the k-grids apart, and a solver that does not
      fail, all results are up to date unless the model is edited after the
      first one. *)
  Theorem C45_history : forall m g major ops, (forall g g', hash g = hash g' -> g = g') ->
    (forall m g, exists st, get_states m g = Ok st) -> edit_first ops ->
    run (new_tex m g major) ops = expected major m g ops.
  Proof.
    intros m g major ops Hinj Hget (pre & post & -> & Hpre & Hpost). revert m g. induction pre as [|o pre IH]; intros m g.
    - cbn [app]. assert (Hgen : forall s, valid s -> run s post = expected (t_major s) (t_model s) (t_grid s) post); [|exact (Hgen (new_tex m g major) I)]. clear m g.
      induction post as [|o post IHp]; intros s Hv; [reflexivity|]. assert (Hp : forall m, ~ In (EditModel m) post) by (intros m Hi; apply (Hpost m); right; exact Hi).
      cbn [M_spin.run expected]. destruct o as [g'|m'|c]; cbn [step].
      + cbn [app]. rewrite (IHp Hp). * reflexivity. * exact Hv.
      + exfalso. apply (Hpost m'). left. reflexivity.
      + pose proof (eval_valid c s Hinj (Hget (t_model s)) Hv) as He. destruct (eval c s) as [s' r]. destruct He as (-> & Hv' & <- & <- & <-).
        cbn [app]. f_equal. apply (IHp Hp). exact Hv'.
    - assert (Hp : forall c, ~ In (Eval c) pre) by (intros c Hi; apply (Hpre c); right; exact Hi). cbn [app M_spin.run expected]. destruct o as [g'|m'|c]; cbn [step app].
      + apply (IH Hp).
      + apply (IH Hp).
      + exfalso. apply (Hpre c). left. reflexivity.
  Qed.
  (** In general, an edit of the model is ignored: the states of the old model
      are used (here for a new model with as many orbitals). *)
  Theorem C45_stale : forall m m' g major c c' st, get_states m g = Ok st -> num_orb m' = num_orb m ->
    run (new_tex m g major) [Eval c; EditModel m'; Eval c'] = [snd (eval c (new_tex m g major)); snd (eval c' (new_tex m g major))].
  Proof.
    intros m m' g major c c' st Hst Hn. rewrite !(eval_fresh _ _ _ _ st Hst). cbn [M_spin.run step]. unfold M_spin.eval, update_states.
    cbn [t_hash M_spin.new_tex t_model t_grid t_major]. rewrite Hst. cbn [bind t_states app t_hash t_model t_grid t_major]. rewrite (proj2 (Heq _ _) eq_refl). cbn [bind t_states app].
    apply f_equal2; [apply values_same; reflexivity|]. apply f_equal2; [|reflexivity]. unfold values, eval_local. cbn [t_grid t_model t_major]. rewrite Hn. reflexivity.
  Qed.
  (** After a failure, a second call does not fail again but returns the
      expectation values of an older k-grid of the same length. *)
  Theorem C45_failure : forall m g g' major c st e, get_states m g = Ok st -> get_states m g' = Err e -> hash g <> hash g' -> length g = length g' ->
    run (new_tex m g major) [Eval c; SetGrid g'; Eval c; Eval c] = [snd (eval c (new_tex m g major)); Err e; snd (eval c (new_tex m g major))].
  Proof.
    intros m g g' major c st e Hst He Hh Hl. rewrite !(eval_fresh _ _ _ _ st Hst). cbn [M_spin.run step]. unfold M_spin.eval, update_states.
    cbn [t_hash M_spin.new_tex t_model t_grid t_major]. rewrite Hst. cbn [bind t_states app t_hash t_model t_grid t_major].
    replace (heqb (hash g) (hash g')) with false by (symmetry; destruct (heqb (hash g) (hash g')) eqn:E; [apply Heq in E; contradiction|reflexivity]).
    rewrite He. cbn [bind t_states app t_hash t_model t_grid t_major]. rewrite (proj2 (Heq _ _) eq_refl). cbn [bind t_states app].
    apply f_equal2; [apply values_same; reflexivity|]. apply f_equal2; [reflexivity|]. apply f_equal2; [|reflexivity]. unfold values, eval_local. cbn [t_grid t_model t_major M_spin.new_tex]. rewrite Hl. reflexivity.
  Qed.
End Hist.
Print Assumptions C45_eval.
Print Assumptions C45_history.
Print Assumptions C45_stale.
Print Assumptions C45_failure.

(** One orbital pair; the first state of the model [false] is spin up, that of
    [true] spin down; the solver fails for k_x > 0. *)
Definition toy_states (m : bool) : list (list Cplx) := if m then [[(0, 0); (1, 0)]; [(1, 0); (0, 0)]]%R else [[(1, 0); (0, 0)]; [(0, 0); (1, 0)]]%R.
Definition toy_solve (m : bool) (k : vec R) : res (list R * list (list Cplx)) :=
  let '(x, _, _) := k in if Rleb x 0 then Ok ([0; 0]%R, toy_states m) else Err RuntimeError.
Lemma toy_solved m : solved (toy_solve m) [(0, 0, 0)%R] 2 2 (fun _ => [0; 0]%R) (fun _ => toy_states m).
Proof.
  intros [|[|i]] k Hk; cbn in Hk; [injection Hk as <-|discriminate..]. unfold toy_solve. rewrite (proj2 (Rleb_spec 0 0) (Rle_refl 0)).
  split; [reflexivity|]. split; [reflexivity|]. destruct m; (split; [reflexivity|]); intros st [<-|[<-|[]]]; reflexivity.
Qed.
(** Refuted as stated: after an edit of the model eval returns +1 where the
    current model gives -1. *)
Theorem C45_stale_refuted : exists ops out out' p p',
  run toy_solve (fun _ => 2) (fun g => length g) Nat.eqb true 1 (new_tex false [(0, 0, 0)%R] true) ops = [Ok out; Ok out] /\
  expected toy_solve (fun _ => 2) (fun g => length g) Nat.eqb true 1 true false [(0, 0, 0)%R] ops = [Ok out; Ok out'] /\
  In p out /\ In p' out' /\ p (0, 0) = 1%R /\ p' (0, 0) = (-1)%R.
Proof.
  destruct (C45_eval toy_solve (fun _ => 2) (fun g => length g) Nat.eqb true 1 ltac:(lia) (or_introl eq_refl) "z" false [(0, 0, 0)%R] true 1 _ _ eq_refl (toy_solved false)) as (out & H1 & H2 & H3).
  destruct (C45_eval toy_solve (fun _ => 2) (fun g => length g) Nat.eqb true 1 ltac:(lia) (or_introl eq_refl) "z" true [(0, 0, 0)%R] true 1 _ _ eq_refl (toy_solved true)) as (out' & H1' & H2' & H3').
  destruct out as [|p out]; [discriminate H2|]. destruct out' as [|p' out']; [discriminate H2'|].
  exists [Eval "z"; EditModel true; Eval "z"], (p :: out), (p' :: out'), p, p'. split; [|split; [|split; [left; reflexivity|split; [left; reflexivity|split]]]].
  - rewrite <- !H1. assert (Hst : exists st, get_states toy_solve (fun _ => 2) true 1 false [(0, 0, 0)%R] = Ok st).
    { unfold eval, update_states in H1. cbn [t_hash new_tex t_model t_grid t_major] in H1. destruct (get_states _ _ _ _ _ _) as [st|e]; [eauto|discriminate]. }
    destruct Hst as (st & Hst). apply (C45_stale toy_solve (fun _ => 2) (fun g => length g) Nat.eqb true 1 Nat.eqb_eq false true _ true "z" "z" st Hst eq_refl).
  - cbn [expected]. rewrite H1, H1'. reflexivity.
  - transitivity (p (Z.of_nat 0, Z.of_nat 0)); [reflexivity|]. rewrite (H3 p (or_introl eq_refl) 0 0)%nat by (cbn; lia). cbn. ring.
  - transitivity (p' (Z.of_nat 0, Z.of_nat 0)); [reflexivity|]. rewrite (H3' p' (or_introl eq_refl) 0 0)%nat by (cbn; lia). cbn. ring.
Qed.
Print Assumptions C45_stale_refuted.
Example C45_history_example : edit_first [SetGrid []; EditModel true; Eval "x"; SetGrid [(0, 0, 0)%R]; @Eval bool "z"] /\ (exists st, get_states toy_solve (fun _ => 2) true 3 true [] = Ok st) /\
  get_states toy_solve (fun _ => 2) true 1 true [(1, 0, 0)%R] = Err RuntimeError.
Proof.
  split; [|split].
  - exists [SetGrid []; EditModel true], [Eval "x"; SetGrid [(0, 0, 0)%R]; Eval "z"]. split; [reflexivity|]. split; intros x Hi; cbn in Hi; intuition discriminate.
  - eexists. reflexivity.
  - assert (Hf : forall f : vec R -> res (list R * list (list Cplx)), f (1, 0, 0)%R = Err RuntimeError -> get_states (fun _ => f) (fun _ => 2) true 1 true [(1, 0, 0)%R] = Err RuntimeError) by (intros f Hf; unfold get_states, calc_states; change (ranks 1) with [0]; cbn [mapM]; unfold states_local; change (dist_range 1 0 (Z.of_nat (length [(1, 0, 0)%R]))) with (Ok [0]); cbn [bind loop]; unfold state_rows; cbn [rd]; change (rd [(1, 0, 0)%R] 0) with (Ok (1, 0, 0)%R); cbn [bind]; unfold loop; cbn [fold_left]; change (rd [(1, 0, 0)%R] 0) with (Ok (1, 0, 0)%R); cbn [bind]; rewrite Hf; reflexivity).
    apply (Hf (toy_solve true)). unfold toy_solve. rewrite (proj2 (Rleb_false 1 0)) by lra. reflexivity.
Qed.
