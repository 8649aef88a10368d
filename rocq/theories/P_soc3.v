(** Spin-orbit coupling (C35): eigenvalues, and the algebra of AtomicOrbital. *)
From Coq Require Import Reals Lra String.
From Verif Require Import Prelude Vec Cx M_soc S_sk S_soc P_soc P_soc2.
Local Open Scope R_scope.
Local Open Scope string_scope.

(** ** Eigenvalues *)
(** Numbers (p + q sqrt 3) + i (r + s sqrt 3) with integers p, q, r, s. *)
Definition z4 : Type := (Z * Z * Z * Z)%type.
Definition z4_0 : z4 := (0, 0, 0, 0)%Z.
Definition z4_add (u v : z4) : z4 := let '(p, q, r, s) := u in let '(p', q', r', s') := v in (p + p', q + q', r + r', s + s')%Z.
Definition z4_mul (u v : z4) : z4 :=
  let '(p, q, r, s) := u in let '(p', q', r', s') := v in
  (p * p' + 3 * q * q' - r * r' - 3 * s * s', p * q' + q * p' - r * s' - s * r', p * r' + 3 * q * s' + r * p' + 3 * s * q', p * s' + q * r' + r * q' + s * p')%Z.
Definition z4_eqb (u v : z4) : bool := let '(p, q, r, s) := u in let '(p', q', r', s') := v in ((p =? p') && (q =? q') && (r =? r') && (s =? s'))%Z%bool.
Definition ev (u : z4) : Cplx := let '(p, q, r, s) := u in (IZR p + IZR q * sqrt 3, IZR r + IZR s * sqrt 3).
Lemma ev_add u v : ev (z4_add u v) = Cadd (ev u) (ev v).
Proof. destruct u as [[[p q] r] s], v as [[[p' q'] r'] s']. unfold ev, z4_add. apply Ceq; cbn [fst snd Cadd]; rewrite !plus_IZR; ring. Qed.
Lemma ev_mul u v : ev (z4_mul u v) = Cmul (ev u) (ev v).
Proof.
  assert (Q : sqrt 3 * sqrt 3 = 3) by (apply sqrt_sqrt; lra).
  destruct u as [[[p q] r] s], v as [[[p' q'] r'] s']. unfold ev, z4_mul. apply Ceq; cbn [fst snd Cmul]; rewrite ?minus_IZR, ?plus_IZR, ?minus_IZR, ?plus_IZR, ?mult_IZR; revert Q; generalize (sqrt 3); intros t Q; ring [Q].
Qed.
Lemma z4_eqb_eq u v : z4_eqb u v = true -> u = v.
Proof. destruct u as [[[p q] r] s], v as [[[p' q'] r'] s']. cbn. rewrite !andb_true_iff, !Z.eqb_eq. intros (((-> & ->) & ->) & ->). reflexivity. Qed.
(** Twice the matrix elements. *)
Definition m2 : Type := (z4 * z4 * z4 * z4)%type.
Definition tx (q : bool) (k : Z) : m2 := let z := if q then (0, 0, 0, k)%Z else (0, 0, k, 0)%Z in (z4_0, z, z, z4_0).
Definition ty (q : bool) (k : Z) : m2 := let f k := if q then (0, k, 0, 0)%Z else (k, 0, 0, 0)%Z in (z4_0, f k, f (- k)%Z, z4_0).
Definition tz (k : Z) : m2 := ((0, 0, k, 0)%Z, z4_0, z4_0, (0, 0, - k, 0)%Z).
Definition twice : list ((string * string) * m2) :=
  [(("px", "py"), tz (-1)); (("py", "px"), tz 1); (("px", "pz"), ty false 1); (("pz", "px"), ty false (-1)); (("py", "pz"), tx false (-1)); (("pz", "py"), tx false 1);
   (("dxy", "dx2-y2"), tz 2); (("dx2-y2", "dxy"), tz (-2)); (("dxy", "dzx"), tx false (-1)); (("dzx", "dxy"), tx false 1); (("dxy", "dyz"), ty false 1); (("dyz", "dxy"), ty false (-1));
   (("dx2-y2", "dzx"), ty false 1); (("dzx", "dx2-y2"), ty false (-1)); (("dx2-y2", "dyz"), tx false 1); (("dyz", "dx2-y2"), tx false (-1)); (("dzx", "dyz"), tz (-1)); (("dyz", "dzx"), tz 1);
   (("dzx", "dz2"), ty true 1); (("dz2", "dzx"), ty true (-1)); (("dyz", "dz2"), tx true (-1)); (("dz2", "dyz"), tx true 1)]%list%Z.
Definition tw (i si j sj : string) : z4 :=
  match aget pair_eqb twice (i, j) with
  | Some (a, b, c, d) => if si =? "up" then (if sj =? "up" then a else b) else (if sj =? "up" then c else d)
  | None => z4_0
  end.
Definition states : list (string * string) := flat_map (fun l => [(l, "up"); (l, "down")])%list labels.
Lemma tw_ok i si j sj : legal i si j sj -> soc_eval i si j sj = Ok (Cmul (Cre (1 / 2)) (ev (tw i si j sj))).
Proof.
  intros L. rewrite <- C35_table2. unfold soc_table2_eval. rewrite (check_ok _ _ _ _ _ L), data_nf_eq. destruct L as (H1 & H2 & H3 & H4). apply orbital_label in H1, H3. apply spin_label in H2, H4.
  all_pairs H1 H3 H2 H4; unfold data_nf; cbn [aget pair_eqb String.eqb Ascii.eqb Bool.eqb andb fst snd s_x s_y s_z mneg mscale]; apply f_equal; unfold tw; cbn [aget pair_eqb String.eqb Ascii.eqb Bool.eqb andb fst snd twice tx ty tz Z.opp ev z4_0].
  all: apply Ceq; cbn -[Rmult Rplus Rminus Ropp Rdiv Rinv IZR pow sqrt]; lra.
Qed.
Lemma state_legal i si : In (i, si) states <-> orbital i <> None /\ spin si <> None.
Proof.
  split.
  - unfold states, labels. cbn [flat_map app In]. intros H. repeat (destruct H as [[= <- <-]|H]; [split; discriminate|]). destruct H.
  - intros (H & H'). apply orbital_label in H. apply spin_label in H'. unfold states. apply in_flat_map. exists i. split; [exact H|]. destruct H' as [->| ->]; cbn [In]; tauto.
Qed.
Definition val (t : res Cplx) : Cplx := match t with Ok v => v | Err _ => Cre 0 end.
Definition csum {A} (f : A -> Cplx) (l : list A) : Cplx := fold_right (fun a s => Cadd (f a) s) (Cre 0) l.
(** (L.S)^2 = l (l + 1) / 4 - L.S / 2: the eigenvalues are l / 2 and - (l + 1) / 2. *)
Definition shell (i : string) : Z := if i =? "s" then 0%Z else if String.prefix "p" i then 1%Z else 2%Z.
Definition check_square (x y : string * string) : bool :=
  z4_eqb (fold_right (fun c s => z4_add (z4_mul (tw (fst x) (snd x) (fst c) (snd c)) (tw (fst c) (snd c) (fst y) (snd y))) s) z4_0 states)
    (z4_add (if (fst x =? fst y) && (snd x =? snd y) then (shell (fst x) * (shell (fst x) + 1), 0, 0, 0)%Z else z4_0) (z4_mul (-1, 0, 0, 0)%Z (tw (fst x) (snd x) (fst y) (snd y)))).
Lemma check_all : forallb (fun x => forallb (check_square x) states) states = true.
Proof. vm_compute. reflexivity. Qed.
Theorem C35_spectrum : forall i si j sj oi v, orbital i = Some oi -> soc_eval i si j sj = Ok v ->
  csum (fun c => Cmul (val (soc_eval i si (fst c) (snd c))) (val (soc_eval (fst c) (snd c) j sj))) states
  = Csub (if (i =? j) && (si =? sj) then Cre (IZR (ang_mom oi) * (IZR (ang_mom oi) + 1) / 4) else Cre 0) (Cmul (Cre (1 / 2)) v).
Proof.
  intros i si j sj oi v Hi H.
  assert (L : legal i si j sj). { destruct (legal_dec i si j sj) as [L|L]; [exact L|]. unfold soc_eval in H. rewrite check_bad in H by exact L. discriminate. }
  rewrite (tw_ok _ _ _ _ L) in H. apply (f_equal val) in H. cbn [val] in H. subst v.
  assert (Hsh : shell i = ang_mom oi). { assert (Li : In i labels) by (apply orbital_label; congruence). unfold labels in Li. cbn [In] in Li. repeat (destruct Li as [<-|Li]; [cbn in Hi; injection Hi as <-; reflexivity|]). destruct Li. }
  destruct L as (L1 & L2 & L3 & L4). pose proof check_all as K. rewrite forallb_forall in K. specialize (K (i, si) (proj2 (state_legal _ _) (conj L1 L2))). rewrite forallb_forall in K. specialize (K (j, sj) (proj2 (state_legal _ _) (conj L3 L4))).
  apply z4_eqb_eq in K. cbn [fst snd] in K. apply (f_equal ev) in K. rewrite ev_add, ev_mul in K.
  assert (S : forall l, incl l states -> csum (fun c => Cmul (val (soc_eval i si (fst c) (snd c))) (val (soc_eval (fst c) (snd c) j sj))) l
     = Cmul (Cre (1 / 4)) (ev (fold_right (fun c s => z4_add (z4_mul (tw i si (fst c) (snd c)) (tw (fst c) (snd c) j sj)) s) z4_0 l))).
  { induction l as [|[c sc] l IH]; intros Hl.
    - cbn [csum fold_right]. unfold ev, z4_0. apply Ceq; cbn -[Rmult Rplus IZR Rdiv sqrt]; field.
    - unfold csum in *. cbn [fold_right]. rewrite IH by (intros x Hx; apply Hl; right; exact Hx). rewrite ev_add, ev_mul. destruct (proj1 (state_legal c sc)) as (C1 & C2). { apply Hl. left. reflexivity. }
      cbn [fst snd]. rewrite (tw_ok i si c sc), (tw_ok c sc j sj) by (repeat split; assumption). cbn [val].
      generalize (ev (tw i si c sc)) (ev (tw c sc j sj)) (ev (fold_right (fun c0 s => z4_add (z4_mul (tw i si (fst c0) (snd c0)) (tw (fst c0) (snd c0) j sj)) s) z4_0 l)). intros [a a'] [b b'] [d d']. apply Ceq; cbn -[Rmult Rplus IZR Rdiv]; field. }
  rewrite (S states) by (intros x Hx; exact Hx). rewrite K, Hsh. generalize (ev (tw i si j sj)). intros [a a']. destruct ((i =? j) && (si =? sj)); unfold ev, z4_0; apply Ceq; cbn -[Rmult Rplus IZR Rdiv sqrt ang_mom Z.mul Z.add]; rewrite ?mult_IZR, ?plus_IZR; field.
Qed.
Print Assumptions C35_spectrum.
(** The diagonal, hence the trace in each shell, is zero: 2 l + 2 states with l / 2
    and 2 l states with - (l + 1) / 2.  Different shells do not couple. *)
Theorem C35_trace : forall i si sj, orbital i <> None -> spin si <> None -> spin sj <> None -> soc_eval i si i sj = Ok (Cre 0).
Proof.
  intros i si sj H1 H2 H3. destruct (orbital i) as [oi|] eqn:E1; [|congruence]. destruct (spin si) as [a|] eqn:E2; [|congruence]. destruct (spin sj) as [b|] eqn:E3; [|congruence].
  rewrite (C35_spec _ _ _ _ _ _ _ _ E1 E2 E1 E3). apply f_equal. unfold l_s. assert (Z : forall k, pair oi (turn k oi) = 0) by (intros k; pose proof (pair_anti k oi oi); lra). rewrite !Z.
  generalize (half_pauli 0 a b) (half_pauli 1 a b) (half_pauli 2 a b). intros [x x'] [y y'] [z z']. apply Ceq; cbn; ring.
Qed.
Print Assumptions C35_trace.
Theorem C35_shells : forall i si j sj oi oj v, orbital i = Some oi -> orbital j = Some oj -> ang_mom oi <> ang_mom oj -> soc_eval i si j sj = Ok v -> v = Cre 0.
Proof.
  intros i si j sj oi oj v Hi Hj Hne H.
  assert (L : legal i si j sj). { destruct (legal_dec i si j sj) as [L|L]; [exact L|]. unfold soc_eval in H. rewrite check_bad in H by exact L. discriminate. }
  destruct L as (H1 & H2 & H3 & H4). destruct (spin si) as [a|] eqn:E2; [|congruence]. destruct (spin sj) as [b|] eqn:E4; [|congruence].
  rewrite (C35_spec _ _ _ _ _ _ _ _ Hi E2 Hj E4) in H. apply (f_equal val) in H. cbn [val] in H. subst v. unfold l_s.
  assert (Z : forall k, pair oi (turn k oj) = 0) by (intros k; destruct oi, oj; cbn [pair turn ang_mom] in *; try congruence; try (unfold dot3, sum3; cbn [comp fst snd]; ring)). rewrite !Z.
  generalize (half_pauli 0 a b) (half_pauli 1 a b) (half_pauli 2 a b). intros [x x'] [y y'] [z z']. apply Ceq; cbn; ring.
Qed.
Print Assumptions C35_shells.
Example C35_ex : soc_eval "px" "up" "py" "up" = Ok (0, - (1 / 2)) /\ orbital "f" = None /\ soc_table_eval "dz2" "down" "dzx" "up" = Ok (re root_dec) /\ flip "up" = "down".
Proof.
  split; [|split; [reflexivity|split; [reflexivity|reflexivity]]]. rewrite tw_ok by (repeat split; discriminate). apply f_equal. unfold tw. cbn. apply Ceq; cbn -[Rmult Rplus IZR Rdiv sqrt]; lra.
Qed.
