(** Velocity matrices. *)
From Verif Require Import Prelude Vec Cx M_super M_sample M_hop M_pc M_sync M_build M_bloch M_par M_lat M_lind
  S_lat S_par S_lind L_base L_super L_sample L_samp2 L_csr L_par L_par2 L_gersh L_lat L_lat2 L_lat3 L_lind L_lind2 L_lind3 L_lind4.
From Coq Require Import Reals Permutation Lra.
Local Open Scope R_scope.
Add Ring Cr5 : (s_ring Cplx CLaws).

(** ** Velocity matrix as a sum *)
Definition vterm (k : V) (c : Z) (a b : Z) (h : hopping) : Cplx :=
  let '(i, j, e, dr) := h in
  let ph := Cmul e (cexp_i (inner k dr)) in
  Cadd (if (a =? i)%Z && (b =? j)%Z then Cmul (Cmul Ci ph) (Cre (comp_of c dr)) else Cre 0)
       (if (a =? j)%Z && (b =? i)%Z then Copp (Cmul (Cmul Ci (Cconj ph)) (Cre (comp_of c dr))) else Cre 0).
Lemma vel_step_at k c m h a b : vel_step k c m h a b = Cadd (m a b) (vterm k c a b h).
Proof.
  destruct h as [[[i j] e] dr]. unfold vel_step, vterm, mset. cbv zeta. change (np_dot k dr) with (inner k dr). change (cos (inner k dr), sin (inner k dr)) with (cexp_i (inner k dr)).
  assert (S : forall x y : Cplx, Cmul x y = Cmul y x) by (intros; ceq; ring). rewrite (S (cexp_i _) e). set (ph := Cmul e _).
  destruct (Z.eqb_spec a i) as [->|Ha], (Z.eqb_spec b j) as [->|Hb]; cbn [andb].
  - destruct (Z.eqb_spec i j) as [->|Hij]; rewrite ?Z.eqb_refl; cbn [andb].
    + ceq; ring.
    + ceq; ring.
  - destruct ((i =? j)%Z && (b =? i)%Z) eqn:Hc; [|ceq; ring].
    apply andb_true_iff in Hc. destruct Hc as (Hc & Hd). apply Z.eqb_eq in Hc, Hd. subst. congruence.
  - destruct ((a =? j)%Z && (j =? i)%Z) eqn:Hc; [|ceq; ring].
    apply andb_true_iff in Hc. destruct Hc as (Hc & Hd). apply Z.eqb_eq in Hc, Hd. subst. congruence.
  - destruct ((a =? j)%Z && (b =? i)%Z) eqn:Hc; [|ceq; ring].
    apply andb_true_iff in Hc. destruct Hc as (Hc & Hd). apply Z.eqb_eq in Hc, Hd. subst.
    replace ((j =? i)%Z && (i =? j)%Z) with false by (symmetry; apply andb_false_iff; left; apply Z.eqb_neq; congruence). ceq; ring.
Qed.
Lemma vel_mat_at hops k c a b : vel_mat hops k c a b = esum (map (vterm k c a b) hops).
Proof.
  unfold vel_mat.
  assert (G : forall m : Z -> Z -> Cplx, fold_left (vel_step k c) hops m a b = Cadd (m a b) (esum (map (vterm k c a b) hops))).
  { induction hops as [|h hops IH]; intros m; cbn [fold_left map]; [rewrite esum_nil; ceq; ring|]. rewrite IH, esum_cons, vel_step_at. ceq; ring. }
  rewrite G. ceq; ring.
Qed.
Lemma vterm_conj k c a b h : vterm k c a b h = Cconj (vterm k c b a h).
Proof.
  destruct h as [[[i j] e] dr]. unfold vterm. cbv zeta. set (ph := Cmul e _). rewrite (andb_comm (b =? i)%Z), (andb_comm (b =? j)%Z).
  destruct ((a =? i)%Z && (b =? j)%Z), ((a =? j)%Z && (b =? i)%Z); destruct ph as [x y]; unfold Ci; ceq; ring.
Qed.
Lemma vel_mat_herm hops k c a b : vel_mat hops k c a b = Cconj (vel_mat hops k c b a).
Proof.
  rewrite !vel_mat_at. induction hops as [|h hops IH]; cbn [map]; rewrite ?esum_nil, ?esum_cons; [ceq; ring|].
  rewrite IH, (vterm_conj k c a b). generalize (vterm k c b a h) (esum (map (vterm k c b a) hops)). intros [x y] [u v]. ceq; ring.
Qed.

(** ** Derivatives *)
Lemma cderiv_const (z : Cplx) x : cderiv (fun _ => z) x (Cre 0).
Proof. split; cbn [fst snd Cre]; apply derivable_pt_lim_const. Qed.
Lemma cderiv_plus f g x d e : cderiv f x d -> cderiv g x e -> cderiv (fun t => Cadd (f t) (g t)) x (Cadd d e).
Proof. intros (h1 & h2) (g1 & g2). split; cbn [fst snd Cadd]; apply derivable_pt_lim_plus; assumption. Qed.
Lemma cderiv_ext f g x d : (forall t, f t = g t) -> cderiv g x d -> cderiv f x d.
Proof.
  intros H (h1 & h2). split; intros eps He.
  - destruct (h1 eps He) as (del & Hd). exists del. intros h Hh Hl. rewrite !H. apply Hd; assumption.
  - destruct (h2 eps He) as (del & Hd). exists del. intros h Hh Hl. rewrite !H. apply Hd; assumption.
Qed.
Lemma cderiv_scale (z : Cplx) f x d : cderiv f x d -> cderiv (fun t => Cmul z (f t)) x (Cmul z d).
Proof.
  intros (h1 & h2). destruct z as [u v]. split; cbn [fst snd Cmul].
  - apply derivable_pt_lim_minus; apply derivable_pt_lim_scal; assumption.
  - apply derivable_pt_lim_plus; apply derivable_pt_lim_scal; assumption.
Qed.
Lemma cderiv_conj f x d : cderiv f x d -> cderiv (fun t => Cconj (f t)) x (Cconj d).
Proof. intros (h1 & h2). split; cbn [fst snd Cconj]; [exact h1|]. apply derivable_pt_lim_opp, h2. Qed.
Lemma cderiv_unique f x d e : cderiv f x d -> cderiv f x e -> d = e.
Proof. intros (h1 & h2) (g1 & g2). destruct d, e. cbn [fst snd] in *. f_equal; eapply uniqueness_limite; eassumption. Qed.
(** exp(i (A + B t)) *)
Lemma cderiv_exp A B x : cderiv (fun t => cexp_i (A + B * t)) x (Cmul (Cmul Ci (cexp_i (A + B * x))) (Cre B)).
Proof.
  assert (Hi : derivable_pt_lim (fun t => A + B * t) x B).
  { cut (derivable_pt_lim (fun t => A + B * t) x (0 + B * 1)); [rewrite Rplus_0_l, Rmult_1_r; auto|]. apply (derivable_pt_lim_plus (fun _ => A) (fun t => B * t)); [apply derivable_pt_lim_const|].
    apply (derivable_pt_lim_scal (fun t => t)), derivable_pt_lim_id. }
  unfold cexp_i. split; cbn [fst snd Cmul Ci Cre].
  - replace ((0 * cos (A + B * x) - 1 * sin (A + B * x)) * B - (0 * sin (A + B * x) + 1 * cos (A + B * x)) * 0) with (- sin (A + B * x) * B) by ring.
    apply (derivable_pt_lim_comp (fun t => A + B * t) cos); [exact Hi|apply derivable_pt_lim_cos].
  - replace ((0 * cos (A + B * x) - 1 * sin (A + B * x)) * 0 + (0 * sin (A + B * x) + 1 * cos (A + B * x)) * B) with (cos (A + B * x) * B) by ring.
    apply (derivable_pt_lim_comp (fun t => A + B * t) sin); [exact Hi|apply derivable_pt_lim_sin].
Qed.
Definition line_of (c : Z) : line := if (c =? 0)%Z then Lx else if (c =? 1)%Z then Ly else Lz.
Lemma comp_coord c d : comp_of c d = coord (line_of c) d.
Proof. destruct d as [[x y] z]. unfold comp_of, line_of. destruct (c =? 0)%Z, (c =? 1)%Z; reflexivity. Qed.
Lemma inner_step ln k d t : inner (step_along ln k t) d = inner k d + coord ln d * t.
Proof. destruct k as [[x y] z], d as [[u v] w], ln; cbn; ring. Qed.
Lemma step_zero ln k : step_along ln k 0 = k.
Proof. destruct k as [[x y] z], ln; cbn; repeat f_equal; ring. Qed.
Lemma bloch_deriv hops k c a b : cderiv (fun t => bloch_sum hops (step_along (line_of c) k t) a b) 0 (vel_mat hops k c a b).
Proof.
  rewrite vel_mat_at. unfold bloch_sum. induction hops as [|h hops IH]; cbn [map].
  - rewrite esum_nil. eapply cderiv_ext; [intros t; apply esum_nil|apply cderiv_const].
  - rewrite esum_cons. eapply cderiv_ext; [intros t; apply esum_cons|]. apply cderiv_plus; [|exact IH]. clear IH. destruct h as [[[i j] e] dr].
    unfold vterm. cbv zeta. rewrite comp_coord.
    assert (Hd : cderiv (fun t => Cmul e (cexp_i (inner (step_along (line_of c) k t) dr))) 0 (Cmul (Cmul Ci (Cmul e (cexp_i (inner k dr)))) (Cre (coord (line_of c) dr)))).
    { eapply cderiv_ext; [intros t; rewrite inner_step; reflexivity|].
      replace (Cmul (Cmul Ci (Cmul e (cexp_i (inner k dr)))) (Cre (coord (line_of c) dr))) with
        (Cmul e (Cmul (Cmul Ci (cexp_i (inner k dr + coord (line_of c) dr * 0))) (Cre (coord (line_of c) dr)))).
      - apply cderiv_scale, cderiv_exp.
      - rewrite Rmult_0_r, Rplus_0_r. ceq; ring. }
    apply cderiv_plus.
    + destruct ((a =? i)%Z && (b =? j)%Z); [exact Hd|apply cderiv_const].
    + destruct ((a =? j)%Z && (b =? i)%Z); [|apply cderiv_const]. apply cderiv_conj in Hd.
      match goal with |- cderiv _ _ ?x => match type of Hd with cderiv _ _ ?y => replace x with y; [exact Hd|] end end.
      set (ph := Cmul e _). destruct ph as [x y]. unfold Ci. ceq; ring.
Qed.

(** ** The Hamiltonian of convention 1 *)
Section Ham.
  Context {L : Type} (c : gcell Cplx R R L) (a0 a1 a2 b0 b1 b2 : V).
  Context (Hlat : g_lat c = (a0, a1, a2)) (HD : dual a0 a1 a2 b0 b1 b2).
  Lemma dual_inner x y : inner (affine b0 b1 b2 (0, 0, 0) x) (Vec.vmat y (a0, a1, a2)) = 2 * PI * inner x y.
  Proof.
    destruct HD as ((h1 & h2 & h3) & (h4 & h5 & h6) & (h7 & h8 & h9)). destruct x as [[x0 x1] x2], y as [[y0 y1] y2].
    transitivity (x0 * (y0 * inner a0 b0 + y1 * inner a1 b0 + y2 * inner a2 b0) + x1 * (y0 * inner a0 b1 + y1 * inner a1 b1 + y2 * inner a2 b1)
                  + x2 * (y0 * inner a0 b2 + y1 * inner a1 b2 + y2 * inner a2 b2)).
    - clear. destruct a0 as [[p q] r], a1 as [[s t] u], a2 as [[v w] k], b0 as [[p' q'] r'], b1 as [[s' t'] u'], b2 as [[v' w'] k']. v3. cbn. ring.
    - rewrite h1, h2, h3, h4, h5, h6, h7, h8, h9. cbn [inner]. ring.
  Qed.
  Definition dr_of (t : rn3 * pair2 * Cplx) : res hopping :=
    let '(rn, (i, j), e) := t in
    bind (rd (orbs (g_pc c)) j) (fun oj => bind (rd (orbs (g_pc c)) i) (fun oi =>
        Ok (i, j, e, Vec.vmat (vsub (vadd (position oj) (vZ rn)) (position oi)) (g_lat c)))).
  Lemma aread_rd {A} (l : list A) i : aread l i = rd l i.
  Proof. reflexivity. Qed.
  Lemma terms_bloch (k : V) terms : forall m hops H, mapM dr_of terms = Ok hops ->
    fold_left (add_term Cconj Ccis Ctau 1 k (map (@position _ _ _) (orbs (g_pc c)))) terms (Ok m) = Ok H ->
    forall x y, H x y = Cadd (m x y) (bloch_sum hops (affine b0 b1 b2 (0, 0, 0) k) x y).
  Proof.
    induction terms as [|t terms IH]; intros m hops H Hh HH x y; cbn [mapM fold_left] in *.
    - injection Hh as <-. injection HH as <-. unfold bloch_sum. cbn [map]. rewrite esum_nil. ceq; ring.
    - destruct t as [[rn [i j]] e]. cbn [dr_of] in Hh.
      destruct (rd (orbs (g_pc c)) j) as [oj|] eqn:Hj; [|discriminate]. destruct (rd (orbs (g_pc c)) i) as [oi|] eqn:Hi; [|discriminate]. cbn [bind] in Hh.
      destruct (mapM dr_of terms) as [hs|] eqn:Ht; [|discriminate]. cbn [bind] in Hh. injection Hh as <-.
      match type of HH with fold_left _ _ ?z = _ => destruct z as [m'|] eqn:Hm end.
      2: { exfalso. clear - HH. induction terms as [|? ? IH']; [discriminate|]. cbn [fold_left] in HH. unfold add_term at 2 in HH. cbn [bind] in HH. auto. }
      specialize (IH m' hs H eq_refl HH x y). rewrite IH. clear IH HH.
      unfold add_term in Hm. cbn [bind] in Hm. rewrite map_length in Hm.
      match type of Hm with (if ?g then _ else _) = _ => destruct g; [discriminate|] end.
      assert (Hx : k_dot_r 1 k (map (@position _ _ _) (orbs (g_pc c))) rn i j = Ok (inner k (vsub (vadd (position oj) (vZ rn)) (position oi)))).
      { unfold k_dot_r. destruct k as [[k0 k1] k2], rn as [[ra rb] rc]. cbn [Z.eqb Pos.eqb]. cbv iota. apply rd_inv in Hj, Hi. destruct Hj as (Hj0 & Hj), Hi as (Hi0 & Hi).
        unfold aread. replace (j <? 0)%Z with false by lia. replace (i <? 0)%Z with false by lia. rewrite !nth_error_map, Hj, Hi. cbn [option_map bind].
        destruct (position oj) as [[x' y'] z'], (position oi) as [[u v] w]. f_equal. cbn. ring. }
      rewrite Hx in Hm. cbn [bind] in Hm. injection Hm as <-. unfold bloch_sum. cbn [map]. rewrite esum_cons, Hlat, dual_inner.
      fold (bloch_sum hs (affine b0 b1 b2 (0, 0, 0) k) x y). generalize (bloch_sum hs (affine b0 b1 b2 (0, 0, 0) k) x y). intros rest.
      set (th := inner k _). change (smul e (Ccis (smul Ctau th))) with (Cmul e (cexp_i (2 * PI * th))). set (ph := Cmul e _). unfold mset.
      destruct (Z.eqb_spec x i) as [->|Ha], (Z.eqb_spec y j) as [->|Hb]; cbn [andb].
      + destruct (Z.eqb_spec i j) as [->|Hij]; rewrite ?Z.eqb_refl; cbn [andb]; ceq; ring.
      + destruct ((i =? j)%Z && (y =? i)%Z) eqn:Hc; [|ceq; ring].
        apply andb_true_iff in Hc. destruct Hc as (Hc & Hd). apply Z.eqb_eq in Hc, Hd. subst. congruence.
      + destruct ((x =? j)%Z && (j =? i)%Z) eqn:Hc; [|ceq; ring].
        apply andb_true_iff in Hc. destruct Hc as (Hc & Hd). apply Z.eqb_eq in Hc, Hd. subst. congruence.
      + destruct ((x =? j)%Z && (y =? i)%Z) eqn:Hc; [|ceq; ring].
        apply andb_true_iff in Hc. destruct Hc as (Hc & Hd). apply Z.eqb_eq in Hc, Hd. subst.
        replace ((j =? i)%Z && (i =? j)%Z) with false by (symmetry; apply andb_false_iff; left; apply Z.eqb_neq; congruence). ceq; ring.
  Qed.
  Lemma ham_bloch k hops H : cell_hops c = Ok hops ->
    set_ham Cconj Cre Ccis Ctau (map (@position _ _ _) (orbs (g_pc c))) (map (@energy _ _ _) (orbs (g_pc c))) (flatten (hop (g_pc c))) 1 k mzero = Ok H ->
    forall x y, H x y = Cadd (set_onsite Cre (map (@energy _ _ _) (orbs (g_pc c))) mzero x y) (bloch_sum hops (affine b0 b1 b2 (0, 0, 0) k) x y).
  Proof. intros Hh HH. exact (terms_bloch k _ _ _ _ Hh HH). Qed.
End Ham.
