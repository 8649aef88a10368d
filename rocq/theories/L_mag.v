(** Lemmas about magnetic fields. *)
From Verif Require Import Prelude Vec L_base M_hop M_inter M_index M_super M_bloch M_sample Cx S_sample S_mag L_samp2.

Section Mag.
  Context {E T : Type} {SE : Scalar E} {ST : Scalar T} (EL : ScalarLaws E) (TL : ScalarLaws T).
  Add Ring Er : (s_ring E EL).
  Add Ring Tr : (s_ring T TL).
  Context (conj : E -> E) (SL : StarLaws conj) (inj : T -> E) (cis : T -> E) (tau : T) (PL : PhaseLaws conj cis tau).
  Context (mag half : T).
  Notation row := (M_super.row E T).

  Lemma rd_in {A} (l : list A) k : 0 <= k < Z.of_nat (length l) -> exists x, rd l k = Ok x /\ nth_error l (Z.to_nat k) = Some x.
  Proof.
    intros Hk. unfold rd. destruct (k <? 0) eqn:Hn; [lia|]. destruct (nth_error l (Z.to_nat k)) as [x|] eqn:Hx; [eauto|].
    apply nth_error_None in Hx. lia.
  Qed.

  (** The phase as the model computes it. *)
  Definition theta (g : Z) (b : T) (p q dr : vec T) : T :=
    let '(xi, yi, _) := p in let '(xj, yj, _) := q in let '(dx, dy, _) := dr in
    if g =? 0 then smul (smul (smul mag b) dx) (sadd yj yi)
    else if g =? 1 then smul (smul (smul (sopp mag) b) dy) (sadd xj xi)
    else smul (smul (smul mag half) b) (ssub (smul dx (sadd xj xi)) (smul dy (sadd yj yi))).

  Definition rotated (pos : list (vec T)) (b : T) (g : Z) (r r' : row) : Prop :=
    exists p q, nth_error pos (Z.to_nat (r_i r)) = Some p /\ nth_error pos (Z.to_nat (r_j r)) = Some q /\
      r' = set_v r (smul (r_v r) (cis (theta g b p q (r_dr r)))).

  Lemma phase_ok pos b g (r : row) : 0 <= r_i r < Z.of_nat (length pos) -> 0 <= r_j r < Z.of_nat (length pos) ->
    exists p q, nth_error pos (Z.to_nat (r_i r)) = Some p /\ nth_error pos (Z.to_nat (r_j r)) = Some q /\
      mag_phase mag half pos b g r = Ok (theta g b p q (r_dr r)).
  Proof.
    intros Hi Hj. destruct (rd_in _ _ Hi) as (p & Hp & Hp'). destruct (rd_in _ _ Hj) as (q & Hq & Hq').
    exists p, q. split; [exact Hp'|]. split; [exact Hq'|]. unfold mag_phase. rewrite Hp, Hq. cbn [bind].
    destruct p as [[xi yi] zi], q as [[xj yj] zj], (r_dr r) as [[dx dy] dz]. unfold theta.
    destruct (g =? 0); [reflexivity|]. destruct (g =? 1); reflexivity.
  Qed.
  Lemma field_ok pos b g rows : inside r_i r_j (Z.of_nat (length pos)) rows ->
    exists rows', set_mag_field cis mag half pos b g rows = Ok rows' /\ Forall2 (rotated pos b g) rows rows'.
  Proof.
    induction rows as [|r rows IH]; intros H; [exists []; split; [reflexivity|constructor]|].
    apply Forall_inv in H as Hr. apply Forall_inv_tail in H. destruct (IH H) as (rows' & Hm & HF). destruct Hr as [Hi Hj].
    destruct (phase_ok pos b g r Hi Hj) as (p & q & Hp & Hq & Hph).
    eexists (_ :: rows'). split; [|constructor; [exists p, q; split; [exact Hp|]; split; [exact Hq|reflexivity]|exact HF]].
    unfold set_mag_field in *. cbn [mapM]. rewrite Hph. cbn [bind]. rewrite Hm. reflexivity.
  Qed.

  Definition legal (g : Z) : Prop := g = 0 \/ g = 1 \/ g = 2.
  Lemma call_ok h s pos rows b g : m_pos s = Some pos -> m_rows s = Some (rows, Int64) ->
    inside r_i r_j (Z.of_nat (length pos)) rows -> legal g ->
    exists rows', set_magnetic_field conj cis mag half h b g s = (with_rows s (Some (rows', Int64)), Ok tt) /\
      Forall2 (rotated pos b g) rows rows'.
  Proof.
    intros Hp Hr Hi Hg. destruct (field_ok pos b g rows Hi) as (rows' & Hm & HF). exists rows'. split; [|exact HF].
    unfold set_magnetic_field, seq2, init_orb_pos. rewrite Hp. unfold init_hops. rewrite Hr. unfold do_mag.
    destruct (negb _) eqn:Hn; [destruct Hg as [-> | [-> | ->]]; discriminate|]. rewrite Hr, Hp. cbn [got bind]. unfold ints. cbn [snd fst bind].
    rewrite Hm. reflexivity.
  Qed.
  Lemma call_bad h s b g : ~ legal g -> snd (set_magnetic_field conj cis mag half h b g s) <> Ok tt /\
    (snd (init_orb_pos h false s) = Ok tt -> snd (init_hops conj h false (fst (init_orb_pos h false s))) = Ok tt ->
     set_magnetic_field conj cis mag half h b g s = (fst (init_hops conj h false (fst (init_orb_pos h false s))), Err ValueError)).
  Proof.
    intros Hg. unfold set_magnetic_field, seq2. destruct (init_orb_pos h false s) as [t r]. cbn [fst snd].
    assert (Hd : forall u : sample E T, do_mag cis mag half b g u = (u, Err ValueError)).
    { intros u. unfold do_mag. destruct (negb _) eqn:Hn; [reflexivity|]. exfalso. apply Hg. unfold legal. destruct (Z.eqb_spec g 0), (Z.eqb_spec g 1), (Z.eqb_spec g 2); try discriminate; auto. }
    destruct r as [[]|x]; [|cbn; split; [congruence|congruence]].
    destruct (init_hops conj h false t) as [u r]. cbn [fst snd]. destruct r as [[]|x]; [|cbn; split; [congruence|congruence]].
    rewrite Hd. cbn [snd]. split; [congruence|]. intros _ _. reflexivity.
  Qed.
  (** A call on a sample whose arrays are not there yet. *)
  Lemma call_init h s b g : snd (init_orb_pos h false s) = Ok tt -> snd (init_hops conj h false (fst (init_orb_pos h false s))) = Ok tt ->
    set_magnetic_field conj cis mag half h b g s =
    set_magnetic_field conj cis mag half h b g (fst (init_hops conj h false (fst (init_orb_pos h false s)))).
  Proof.
    intros H1 H2. unfold set_magnetic_field, seq2. destruct (init_orb_pos h false s) as [t r] eqn:Et. cbn [fst snd] in *. subst r.
    destruct (init_hops conj h false t) as [u r] eqn:Eu. cbn [fst snd] in *. subst r.
    assert (Hp : exists p, m_pos u = Some p).
    { assert (Hp : exists p, m_pos t = Some p).
      { revert Et. unfold init_orb_pos. destruct (m_pos s) as [p|] eqn:Hp; [intros Et; injection Et as <-; eauto|].
        destruct (fresh_pos h s); [|discriminate]. intros Et. injection Et as <-. cbn. eauto. }
      revert Eu. unfold init_hops. destruct (m_rows t); [intros Eu; injection Eu as <-; exact Hp|].
      destruct (fresh_rows conj h t); [|discriminate]. intros Eu. injection Eu as <-. exact Hp. }
    assert (Hr : exists q, m_rows u = Some q).
    { revert Eu. unfold init_hops. destruct (m_rows t) as [q|] eqn:Hq; [intros Eu; injection Eu as <-; eauto|].
      destruct (fresh_rows conj h t); [|discriminate]. intros Eu. injection Eu as <-. cbn. eauto. }
    destruct Hp as (p & Hp). destruct Hr as (q & Hr). unfold init_orb_pos. rewrite Hp. unfold init_hops. rewrite Hr. reflexivity.
  Qed.

  (** ** Phases *)
  Lemma cis_unit x : smul (cis x) (conj (cis x)) = s1.
  Proof. rewrite <- (cis_opp _ _ _ PL), <- (cis_add _ _ _ PL). replace (sadd x (sopp x)) with (@s0 T ST) by ring. apply (cis_0 _ _ _ PL). Qed.
  Lemma theta_doc g b p q dr : g = 0 \/ g = 1 -> theta g b p q dr = peierls mag (potential half g b) p q dr.
  Proof.
    intros Hg. destruct p as [[xi yi] zi], q as [[xj yj] zj], dr as [[dx dy] dz]. unfold theta, peierls, potential.
    destruct Hg as [->| ->]; cbn [Z.eqb Pos.eqb fst snd]; ring.
  Qed.
  Lemma theta_0 g p q dr : theta g s0 p q dr = s0.
  Proof.
    destruct p as [[xi yi] zi], q as [[xj yj] zj], dr as [[dx dy] dz]. unfold theta. destruct (g =? 0); [ring|]. destruct (g =? 1); ring.
  Qed.
  Lemma theta_add g b c p q dr : theta g (sadd b c) p q dr = sadd (theta g b p q dr) (theta g c p q dr).
  Proof.
    destruct p as [[xi yi] zi], q as [[xj yj] zj], dr as [[dx dy] dz]. unfold theta. destruct (g =? 0); [ring|]. destruct (g =? 1); ring.
  Qed.

  Lemma zero_field pos g rows rows' : Forall2 (rotated pos s0 g) rows rows' -> rows' = rows.
  Proof.
    induction 1 as [|r r' rows rows' H HF IH]; [reflexivity|]. destruct H as (p & q & _ & _ & ->). rewrite IH, theta_0, (cis_0 _ _ _ PL).
    f_equal. destruct r as [a c v d]. unfold set_v. cbn [r_i r_j r_v r_dr]. f_equal. ring.
  Qed.
  Lemma rotated_det pos b g rows r1 r2 : Forall2 (rotated pos b g) rows r1 -> Forall2 (rotated pos b g) rows r2 -> r1 = r2.
  Proof.
    intros H. revert r2. induction H as [|r r' rows rows' H HF IH]; intros r2 H2; inversion H2 as [|? ? ? ? H' HF']; subst; [reflexivity|].
    f_equal; [|apply IH; assumption]. destruct H as (p & q & Hp & Hq & ->). destruct H' as (p' & q' & Hp' & Hq' & ->). congruence.
  Qed.
  Lemma two_fields pos b c g rows r1 r2 : Forall2 (rotated pos b g) rows r1 -> Forall2 (rotated pos c g) r1 r2 ->
    Forall2 (rotated pos (sadd b c) g) rows r2.
  Proof.
    intros H. revert r2. induction H as [|r r' rows rows' H HF IH]; intros r2 H2; inversion H2 as [|? ? ? ? H' HF']; subst; [constructor|].
    constructor; [|apply IH; assumption]. destruct H as (p & q & Hp & Hq & ->). destruct H' as (p' & q' & Hp' & Hq' & ->).
    cbn [set_v r_i r_j r_dr r_v] in *. replace p' with p in * by congruence. replace q' with q in * by congruence.
    exists p, q. split; [exact Hp|]. split; [exact Hq|]. unfold set_v. cbn [r_i r_j r_dr r_v]. f_equal.
    rewrite theta_add, (cis_add _ _ _ PL). ring.
  Qed.
  Lemma inside_rotated n pos b g rows rows' : Forall2 (rotated pos b g) rows rows' -> inside r_i r_j n rows -> inside r_i r_j n rows'.
  Proof.
    induction 1 as [|r r' rows rows' H HF IH]; intros Hi; [constructor|]. constructor; [|apply IH; exact (Forall_inv_tail Hi)].
    destruct H as (p & q & _ & _ & ->). exact (Forall_inv Hi).
  Qed.

  (** ** Walks *)
  Definition tele (g : Z) (b : T) (p : vec T) : T :=
    let '(x, y, _) := p in
    if g =? 0 then smul (smul mag b) (smul x y)
    else if g =? 1 then sopp (smul (smul mag b) (smul x y))
    else smul (smul (smul mag half) b) (ssub (smul x x) (smul y y)).
  Definition coef (g : Z) (b : T) : T := if (g =? 0) || (g =? 1) then smul mag b else s0.
  Definition cross (p q : vec T) : T := let '(xi, yi, _) := p in let '(xj, yj, _) := q in ssub (smul xi yj) (smul xj yi).
  Lemma theta_open g b p q : theta g b p q (vsub q p) = sadd (ssub (tele g b q) (tele g b p)) (sopp (smul (coef g b) (cross p q))).
  Proof.
    destruct p as [[xi yi] zi], q as [[xj yj] zj]. unfold theta, tele, coef, cross, vsub. cbn [fst snd].
    destruct (g =? 0); [cbn [orb]; ring|]. destruct (g =? 1); cbn [orb]; ring.
  Qed.
  Lemma shoelace_cons p q (ps : list (vec T)) : shoelace p (q :: ps) = sadd (cross p q) (shoelace q ps).
  Proof. destruct p as [[xi yi] zi], q as [[xj yj] zj]. reflexivity. Qed.
  Lemma cross_swap p q : cross q p = sopp (cross p q).
  Proof. destruct p as [[xi yi] zi], q as [[xj yj] zj]. unfold cross. ring. Qed.

  Lemma F2_nth {A B} (R : A -> B -> Prop) l m : Forall2 R l m -> forall k x, nth_error l k = Some x -> exists y, nth_error m k = Some y /\ R x y.
  Proof.
    induction 1 as [|a b l m H HF IH]; intros k x Hk; [destruct k; discriminate|].
    destruct k as [|k]; [injection Hk as <-; exists b; split; [reflexivity|exact H]|exact (IH k x Hk)].
  Qed.
  Notation amp := (amplitude conj (@r_v E T)).
  Lemma amp_walk pos b g rows rows' : Forall2 (rotated pos b g) rows rows' -> open r_i r_j r_dr pos rows ->
    forall i steps ps j, walk (@r_i E T) r_j pos rows i steps ps j ->
    forall p q, nth_error pos (Z.to_nat i) = Some p -> nth_error pos (Z.to_nat j) = Some q ->
    amp rows' steps = smul (amp rows steps)
      (cis (sadd (ssub (tele g b q) (tele g b p)) (sopp (smul (coef g b) (shoelace p ps))))).
  Proof.
    intros HF HO i steps ps j HW. induction HW as [i|f k r p1 steps ps j Hk Hp1 HW IH]; intros p q Hp Hq.
    - replace q with p by congruence. cbn. replace (sadd _ _) with (@s0 T ST) by ring. rewrite (cis_0 _ _ _ PL). ring.
    - specialize (IH p1 q Hp1 Hq). destruct (F2_nth _ _ _ HF _ _ Hk) as (r' & Hr' & (pi & pj & Hpi & Hpj & ->)).
      unfold amplitude in *. cbn [fold_right fst snd]. rewrite Hk, Hr', IH. unfold set_v. cbn [r_v].
      assert (Hin : In r rows) by (eapply nth_error_In; exact Hk). rewrite (HO r pi pj Hin Hpi Hpj), theta_open, shoelace_cons.
      destruct f.
      + replace pi with p in * by congruence. replace pj with p1 in * by congruence.
        set (u := sadd (ssub (tele g b p1) (tele g b p)) (sopp (smul (coef g b) (cross p p1)))).
        set (w := sadd (ssub (tele g b q) (tele g b p1)) (sopp (smul (coef g b) (shoelace p1 ps)))).
        replace (sadd (ssub (tele g b q) (tele g b p)) (sopp (smul (coef g b) (sadd (cross p p1) (shoelace p1 ps)))))
          with (sadd u w) by (unfold u, w; ring).
        rewrite (cis_add _ _ _ PL u w). cbv iota. ring.
      + replace pj with p in * by congruence. replace pi with p1 in * by congruence.
        rewrite (cross_swap p p1). set (u := sadd (ssub (tele g b p) (tele g b p1)) (sopp (smul (coef g b) (sopp (cross p p1))))).
        set (w := sadd (ssub (tele g b q) (tele g b p1)) (sopp (smul (coef g b) (shoelace p1 ps)))).
        replace (sadd (ssub (tele g b q) (tele g b p)) (sopp (smul (coef g b) (sadd (cross p p1) (shoelace p1 ps)))))
          with (sadd (sopp u) w) by (unfold u, w; ring).
        rewrite (cis_add _ _ _ PL (sopp u) w), (cis_opp _ _ _ PL u), (conj_mul _ SL). cbv iota. ring.
  Qed.
  Lemma area2_end p0 (ps : list (vec T)) (p : vec T) : last ps p = p0 -> shoelace p (ps ++ [p0]) = shoelace p ps.
  Proof.
    revert p. induction ps as [|q ps IH]; intros p H; cbn [app].
    - cbn in H. subst p. rewrite shoelace_cons. destruct p0 as [[x y] z]. unfold cross. cbn [shoelace]. ring.
    - rewrite !shoelace_cons. rewrite IH; [reflexivity|]. destruct ps as [|a l]; [exact H|]. revert H. clear. revert a. induction l as [|c l IH]; intros a H; [exact H|]. apply (IH c). exact H.
  Qed.
  Lemma walk_end (pos : list (vec T)) (rows : list row) i steps ps j : walk (@r_i E T) r_j pos rows i steps ps j ->
    forall p q, nth_error pos (Z.to_nat i) = Some p -> nth_error pos (Z.to_nat j) = Some q -> last ps p = q.
  Proof.
    induction 1 as [i|f k r p1 steps ps j Hk Hp1 HW IH]; intros p q Hp Hq; [cbn; congruence|].
    specialize (IH p1 q Hp1 Hq). destruct ps as [|a l]; [exact IH|]. transitivity (last (a :: l) p1); [|exact IH].
    change (last (p1 :: a :: l) p) with (last (a :: l) p). clear. revert a. induction l as [|c l IH]; intros a; [reflexivity|]. apply (IH c).
  Qed.
  Lemma loop_flux pos b g rows rows' i steps ps p0 : Forall2 (rotated pos b g) rows rows' -> open r_i r_j r_dr pos rows ->
    walk (@r_i E T) r_j pos rows i steps ps i -> nth_error pos (Z.to_nat i) = Some p0 ->
    amp rows' steps = smul (amp rows steps) (cis (sopp (smul (coef g b) (area2 p0 ps)))).
  Proof.
    intros HF HO HW Hp. rewrite (amp_walk pos b g rows rows' HF HO i steps ps i HW p0 p0 Hp Hp).
    unfold area2. rewrite (area2_end p0 ps p0 (walk_end _ _ _ _ _ _ HW p0 p0 Hp Hp)). f_equal. f_equal. ring.
  Qed.

  Lemma gauge2 h s pos rows b i steps ps p0 : m_pos s = Some pos -> m_rows s = Some (rows, Int64) ->
    inside r_i r_j (Z.of_nat (length pos)) rows -> open r_i r_j r_dr pos rows ->
    walk (@r_i E T) r_j pos rows i steps ps i -> nth_error pos (Z.to_nat i) = Some p0 ->
    exists s' rows', set_magnetic_field conj cis mag half h b 2 s = (s', Ok tt) /\ m_rows s' = Some (rows', Int64) /\
      amp rows' steps = amp rows steps.
  Proof.
    intros Hp Hr Hi HO HW Hp0. destruct (call_ok h s pos rows b 2 Hp Hr Hi) as (rows' & Hc & HF); [right; right; reflexivity|].
    exists (with_rows s (Some (rows', Int64))), rows'. split; [exact Hc|]. split; [reflexivity|].
    rewrite (loop_flux pos b 2 rows rows' i steps ps p0 HF HO HW Hp0). unfold coef. cbn [Z.eqb Pos.eqb orb].
    replace (sopp (smul s0 (area2 p0 ps))) with (@s0 T ST) by ring. rewrite (cis_0 _ _ _ PL). ring.
  Qed.

  (** ** Gauge equivalence *)
  Definition twist (pos : list (vec T)) (b : T) (i : Z) : T :=
    match nth_error pos (Z.to_nat i) with
    | Some p => let '(x, y, _) := p in sadd (smul (smul mag b) (smul x y)) (smul (smul mag b) (smul x y))
    | None => s0
    end.
  Lemma gauge_rows pos b rows r0 r1 : Forall2 (rotated pos b 0) rows r0 -> Forall2 (rotated pos b 1) rows r1 ->
    open r_i r_j r_dr pos rows ->
    Forall2 (fun a c => r_i a = r_i c /\ r_j a = r_j c /\ r_v a = smul (r_v c) (cis (ssub (twist pos b (r_j c)) (twist pos b (r_i c))))) r0 r1.
  Proof.
    intros H0. revert r1. induction H0 as [|r a rows r0 H HF IH]; intros r1 H1 HO; inversion H1 as [|? c ? r1' H' HF']; subst; constructor.
    - destruct H as (p & q & Hp & Hq & ->). destruct H' as (p' & q' & Hp' & Hq' & ->). replace p' with p in * by congruence. replace q' with q in * by congruence.
      unfold set_v, twist. cbn [r_i r_j r_v]. split; [reflexivity|]. split; [reflexivity|]. rewrite Hp, Hq.
      rewrite (HO r p q (or_introl eq_refl) Hp Hq). rewrite !theta_open. unfold tele, coef. cbn [Z.eqb Pos.eqb orb].
      destruct p as [[xi yi] zi], q as [[xj yj] zj].
      match goal with |- _ = smul (smul ?v (cis ?x)) (cis ?y) => replace (smul (smul v (cis x)) (cis y)) with (smul v (smul (cis x) (cis y))) by ring end.
      rewrite <- (cis_add _ _ _ PL). f_equal. f_equal. ring.
    - apply IH; [exact HF'|]. intros x y z Hin. exact (HO x y z (or_intror Hin)).
  Qed.
  Lemma twist_ham (u : Z -> T) (eng : list T) (ra rb : list row) :
    Forall2 (fun a c => r_i a = r_i c /\ r_j a = r_j c /\ r_v a = smul (r_v c) (cis (ssub (u (r_j c)) (u (r_i c))))) ra rb ->
    forall i j, ham conj inj r_i r_j r_v eng ra i j = smul (smul (conj (cis (u i))) (ham conj inj r_i r_j r_v eng rb i j)) (cis (u j)).
  Proof.
    intros HF i j. unfold ham.
    replace (smul (smul (conj (cis (u i))) (sadd (site inj eng i j) (hop_part conj r_i r_j r_v rb i j))) (cis (u j)))
      with (sadd (smul (smul (conj (cis (u i))) (site inj eng i j)) (cis (u j))) (smul (smul (conj (cis (u i))) (hop_part conj r_i r_j r_v rb i j)) (cis (u j)))) by ring.
    f_equal.
    - unfold site. destruct (Z.eqb_spec i j) as [->|Hn]; cbn [andb]; [|ring]. destruct (0 <=? j); [|ring]. destruct (nth_error _ _); [|ring].
      match goal with |- ?x = _ => transitivity (smul x (smul (cis (u j)) (conj (cis (u j))))); [rewrite cis_unit; ring|ring] end.
    - unfold hop_part. induction HF as [|a c ra rb H HF IH]; cbn [map]; rewrite ?esum_nil, ?esum_cons; [ring|]. rewrite IH.
      destruct H as (Hi & Hj & Hv). rewrite Hi, Hj, Hv.
      match goal with |- sadd ?x (smul (smul ?g ?y) ?h) = smul (smul ?g (sadd ?z ?y)) ?h => assert (Hz : x = smul (smul g z) h); [|rewrite Hz; ring] end.
      destruct (Z.eqb_spec (r_i c) i) as [Ei|Ei]; destruct (Z.eqb_spec (r_j c) j) as [Ej|Ej]; destruct (Z.eqb_spec (r_j c) i) as [Ek|Ek];
        destruct (Z.eqb_spec (r_i c) j) as [El|El]; cbn [andb]; try ring; subst;
        rewrite ?(conj_mul _ SL);
        replace (ssub (u (r_j c)) (u (r_i c))) with (sadd (u (r_j c)) (sopp (u (r_i c)))) by ring;
        rewrite ?(cis_add _ _ _ PL), ?(cis_opp _ _ _ PL), ?(conj_mul _ SL), ?(conj_conj _ SL); try ring.
      all: try (rewrite ?Ek, ?El, ?Ei, ?Ej in *; ring).
  Qed.
End Mag.
