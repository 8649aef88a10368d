(** Amplitudes of cells built by a sequence of calls, for all cells at once. *)
From Coq Require Import String.
From Verif Require Import Prelude Vec Cx M_hop M_pc M_super M_build M_hopdict M_graphene S_pc S_super S_build S_hopdict S_mat L_base L_hop L_pc L_super L_build P_hopdict.
Open Scope Z_scope.

Section Script.
  Context {E X W L : Type} (conj : E -> E) (zero : X).
  Lemma script_app (os os' : list (op E X W L)) : forall s, script conj zero s (os ++ os') = bind (script conj zero s os) (fun s' => script conj zero s' os').
  Proof using.
    induction os as [|o os IH]; intros s; [reflexivity|]. cbn [app script]. destruct (step conj zero s o) as [s' [a|x]]; [apply IH|reflexivity].
  Qed.
  Definition hop_op (w : list Z * Z * Z * E) : op E X W L := let '(rn, i, j, e) := w in OpAddHop rn i j e.
  Definition hop_w (w : list Z * Z * Z * E) : wterm := let '(rn, i, j, e) := w in (cell_of rn, i, j, e).
  Lemma script_hops ws : forall s : pc E X W L, locked s = false ->
    Forall (fun w => two_or_three (fst (fst (fst w))) /\ w_ok (num_orb s) (hop_w w)) ws ->
    script conj zero s (map hop_op ws) = Ok (set_hop s (writes conj (hop s) (map hop_w ws))).
  Proof using.
    induction ws as [|[[[rn i] j] e] ws IH]; intros s Hl Hf; [destruct s; reflexivity|]. cbn [map hop_op hop_w script step].
    destruct (Forall_inv Hf) as (Hr & Hi & Hj & Hd). apply Forall_inv_tail in Hf. cbn [fst] in Hr. unfold add_hopping, check_hop_index. rewrite Hl, (check_rn_full rn Hr).
    replace (negb ((0 <=? i) && (i <? num_orb s))) with false by lia. replace (negb ((0 <=? j) && (j <? num_orb s))) with false by lia.
    change (full rn) with (cell_of rn). destruct (rn_eqb (cell_of rn) (0, 0, 0) && (i =? j)) eqn:Q; [exfalso; apply Hd; apply andb_prop in Q; destruct Q as [Q1 Q2]; apply rn_eqb_spec in Q1; split; [exact Q1|lia]|].
    rewrite IH; [reflexivity|exact Hl|exact Hf].
  Qed.
  Context (conj_conj : forall e, conj (conj e) = e).
  (** Cells made of orbitals and then hoppings. *)
  Lemma made os ws (s : pc E X W L) : script conj zero pc_empty os = Ok s -> locked s = false -> hop s = [] ->
    Forall (fun w => two_or_three (fst (fst (fst w))) /\ w_ok (num_orb s) (hop_w w)) ws ->
    exists s', script conj zero pc_empty (os ++ map hop_op ws) = Ok s' /\ orbs s' = orbs s /\ locked s' = false /\
      forall r i j, a_hop (abs conj s') r i j = last_write conj (map hop_w ws) r i j None.
  Proof using conj_conj.
    intros Hs Hl Hh Hf. rewrite script_app, Hs. cbn [bind]. rewrite (script_hops ws s Hl Hf), Hh. eexists. split; [reflexivity|]. split; [reflexivity|]. split; [exact Hl|]. intros r i j. cbn [abs a_hop set_hop hop].
    assert (Hok : Forall (w_ok (num_orb s)) (map hop_w ws)) by (apply Forall_forall; intros w Hw; apply in_map_iff in Hw; destruct Hw as (w' & <- & Hw'); apply (proj1 (Forall_forall _ _) Hf w' Hw')).
    rewrite (proj2 (writes_ok conj conj_conj (num_orb s) (map hop_w ws) [] (hop_ok_nil _) Hok) r i j), get_nil. reflexivity.
  Qed.
End Script.

(** ** Amplitudes named by symbols *)
Section Names.
  Context {N E : Type} (bar : N -> N) (conj : E -> E) (val : N -> E) (Hval : forall x, val (bar x) = conj (val x)).
  Definition wmap (w : wterm (E := N)) : wterm (E := E) := let '(r, i, j, x) := w in (r, i, j, val x).
  Lemma last_write_map (ws : list (wterm (E := N))) : forall r i j now,
    last_write conj (map wmap ws) r i j (option_map val now) = option_map val (last_write bar ws r i j now).
  Proof using Hval.
    induction ws as [|[[[r0 a] b] x] ws IH]; intros r i j now; [reflexivity|]. cbn [map wmap last_write]. rewrite <- IH. f_equal.
    destruct (same_key r0 r a b i j); [reflexivity|]. destruct (same_key r0 (opp3 r) a b j i); [|reflexivity]. cbn [option_map]. rewrite Hval. reflexivity.
  Qed.
End Names.

Definition keys_of {N} (ws : list (wterm (E := N))) : list (cell * Z * Z) :=
  flat_map (fun w : wterm => let '(r, i, j, _) := w in [(r, i, j); (opp3 r, j, i)]) ws.
Lemma last_write_keys {N} (bar : N -> N) (ws : list (wterm (E := N))) r i j : forall now,
  last_write bar ws r i j now <> now -> In (r, i, j) (keys_of ws).
Proof.
  induction ws as [|[[[r0 a] b] x] ws IH]; intros now H; [contradiction H; reflexivity|]. cbn [last_write keys_of flat_map app] in *.
  destruct (same_key r0 r a b i j) eqn:K1; [apply same_key_spec in K1; left; exact K1|].
  destruct (same_key r0 (opp3 r) a b j i) eqn:K2; [apply same_key_spec in K2; right; left; injection K2 as -> -> ->; rewrite opp3_opp3; reflexivity|].
  right. right. apply (IH now H).
Qed.

(** The cells of a box. *)
Definition side (b : Z) : list Z := map (fun k => k - b) (zrange (Z.to_nat (2 * b + 1))).
Definition box (b : cell) : list cell :=
  let '(x, y, z) := b in flat_map (fun p => flat_map (fun q => map (fun s => (p, q, s)) (side z)) (side y)) (side x).
Definition in_box (b r : cell) : bool :=
  let '(x, y, z) := b in let '(p, q, s) := r in (Z.abs p <=? x) && (Z.abs q <=? y) && (Z.abs s <=? z).
Lemma In_zrange n k : In k (zrange n) <-> 0 <= k < Z.of_nat n.
Proof.
  unfold zrange. rewrite in_map_iff. split.
  - intros (m & <- & H). apply in_seq in H. lia.
  - intros H. exists (Z.to_nat k). split; [lia|]. apply in_seq. lia.
Qed.
Lemma In_side b k : In k (side b) <-> Z.abs k <= b.
Proof.
  unfold side. rewrite in_map_iff. split.
  - intros (m & <- & H). apply In_zrange in H. lia.
  - intros H. exists (k + b). split; [lia|]. apply In_zrange. lia.
Qed.
Lemma In_box b r : In r (box b) <-> in_box b r = true.
Proof.
  destruct b as [[x y] z], r as [[p q] s]. unfold box, in_box. rewrite in_flat_map. split.
  - intros (p' & Hp & H). apply in_flat_map in H. destruct H as (q' & Hq & H). apply in_map_iff in H. destruct H as (s' & H & Hs). injection H as -> -> ->. apply In_side in Hp, Hq, Hs. lia.
  - intros H. exists p. split; [apply In_side; lia|]. apply in_flat_map. exists q. split; [apply In_side; lia|]. apply in_map_iff. exists s. split; [reflexivity|]. apply In_side. lia.
Qed.

(** Two tables of amplitudes that agree in a box, and vanish outside. *)
Section Relabel.
  Context {N : Type} (bar : N -> N) (eqb : N -> N -> bool) (eqb_eq : forall x y, eqb x y = true -> x = y).
  Definition oeqb (a b : option N) : bool := match a, b with Some x, Some y => eqb x y | None, None => true | _, _ => false end.
  Lemma oeqb_eq a b : oeqb a b = true -> a = b.
  Proof using eqb_eq. destruct a, b; cbn; intros H; try discriminate; [rewrite (eqb_eq _ _ H)|]; reflexivity. Qed.
  Definition boxed (b : cell) (ws : list (wterm (E := N))) : bool := forallb (fun k : cell * Z * Z => in_box b (fst (fst k))) (keys_of ws).
  Lemma boxed_none b ws r i j : boxed b ws = true -> in_box b r = false -> last_write bar ws r i j None = None.
  Proof using.
    intros Hb Hr. destruct (last_write bar ws r i j None) as [x|] eqn:Q; [|reflexivity]. exfalso.
    assert (Hk : In (r, i, j) (keys_of ws)) by (apply (last_write_keys bar ws r i j None); rewrite Q; discriminate).
    unfold boxed in Hb. rewrite forallb_forall in Hb. specialize (Hb _ Hk). cbn [fst] in Hb. congruence.
  Qed.
  Context (ws ws' : list (wterm (E := N))) (n : Z) (b b' : cell) (h : cell -> Z -> Z -> cell) (p : Z -> Z).
  Definition agree_box : bool :=
    forallb (fun r => forallb (fun i => forallb (fun j =>
      oeqb (last_write bar ws' (h r i j) (p i) (p j) None) (last_write bar ws r i j None))
      (zrange (Z.to_nat n))) (zrange (Z.to_nat n))) (box b).
  Lemma relabel r i j : boxed b ws = true -> boxed b' ws' = true ->
    (in_box b r = false -> in_box b' (h r i j) = false) -> agree_box = true -> 0 <= i < n -> 0 <= j < n ->
    last_write bar ws' (h r i j) (p i) (p j) None = last_write bar ws r i j None.
  Proof using eqb_eq.
    intros H1 H2 H3 H4 Hi Hj. destruct (in_box b r) eqn:Q.
    - unfold agree_box in H4. rewrite forallb_forall in H4. specialize (H4 r (proj2 (In_box b r) Q)). rewrite forallb_forall in H4. specialize (H4 i (proj2 (In_zrange (Z.to_nat n) i) ltac:(lia))). rewrite forallb_forall in H4. specialize (H4 j (proj2 (In_zrange (Z.to_nat n) j) ltac:(lia))). apply oeqb_eq, H4.
    - rewrite (boxed_none b ws r i j H1 Q). apply (boxed_none b' ws' _ _ _ H2 (H3 eq_refl)).
  Qed.
End Relabel.
