(** Reading back printed formulas. *)
From Coq Require Import Reals Lra.
From Verif Require Import Prelude Vec Cx M_hop M_pc M_sync M_bloch M_print S_pc S_super S_bloch S_print L_bloch L_gersh.
Local Open Scope Z_scope.

(** ** The evaluator, without fuel. *)
Section Read.
  Context (k : R * R * R) (ham : Z -> Z -> Cplx).
  Notation big P := (exists n, forall m, (n <= m)%nat -> P m).
  Definition rsum ts v r := big (fun m => p_sum k ham m ts = Some (v, r)).
  Definition radd a ts v r := big (fun m => p_add k ham m a ts = Some (v, r)).
  Definition rterm ts v r := big (fun m => p_term k ham m ts = Some (v, r)).
  Definition rmul a ts v r := big (fun m => p_mul k ham m a ts = Some (v, r)).
  Definition rfac ts v r := big (fun m => p_factor k ham m ts = Some (v, r)).
  Definition ratom ts v r := big (fun m => p_atom k ham m ts = Some (v, r)).

  Ltac one N := exists (S N); intros [|m] Hm; [lia|]; cbn.
  Lemma rsum_i ts v r w r' : rterm ts v r -> radd v r w r' -> rsum ts w r'.
  Proof. intros [a Ha] [b Hb]. one (a + b)%nat. rewrite Ha by lia. apply Hb. lia. Qed.
  Lemma rterm_i ts v r w r' : rfac ts v r -> rmul v r w r' -> rterm ts w r'.
  Proof. intros [a Ha] [b Hb]. one (a + b)%nat. rewrite Ha by lia. apply Hb. lia. Qed.
  Lemma radd_plus a ts v r w r' : rterm ts v r -> radd (Cadd a v) r w r' -> radd a (TAdd :: ts) w r'.
  Proof. intros [x Ha] [b Hb]. one (x + b)%nat. rewrite Ha by lia. apply Hb. lia. Qed.
  Lemma radd_minus a ts v r w r' : rterm ts v r -> radd (Csub a v) r w r' -> radd a (TSub :: ts) w r'.
  Proof. intros [x Ha] [b Hb]. one (x + b)%nat. rewrite Ha by lia. apply Hb. lia. Qed.
  Lemma rmul_i a ts v r w r' : rfac ts v r -> rmul (Cmul a v) r w r' -> rmul a (TMul :: ts) w r'.
  Proof. intros [x Ha] [b Hb]. one (x + b)%nat. rewrite Ha by lia. apply Hb. lia. Qed.
  Definition no_add (r : list tok) : Prop := match r with TAdd :: _ | TSub :: _ => False | _ => True end.
  Definition no_mul (r : list tok) : Prop := match r with TMul :: _ => False | _ => True end.
  Lemma radd_stop a r : no_add r -> radd a r a r.
  Proof. intros H. one 0%nat. destruct r as [|[] r]; cbn in H; (reflexivity || contradiction). Qed.
  Lemma rmul_stop a r : no_mul r -> rmul a r a r.
  Proof. intros H. one 0%nat. destruct r as [|[] r]; cbn in H; (reflexivity || contradiction). Qed.
  Lemma rfac_neg ts v r : rfac ts v r -> rfac (TSub :: ts) (Copp v) r.
  Proof. intros [x Ha]. one x. rewrite Ha by lia. reflexivity. Qed.
  Lemma rfac_num z r : rfac (TNum z :: r) z r.
  Proof. one 1%nat. destruct m; [lia|]. reflexivity. Qed.
  Lemma rfac_name a r : rfac (TName a :: r) (Cre (k_val k a)) r.
  Proof. one 1%nat. destruct m; [lia|]. reflexivity. Qed.
  Lemma rfac_exp ts v r : rsum ts v (TRpar :: r) -> rfac (TExp :: TLpar :: ts) (exp_i v) r.
  Proof. intros [x Ha]. one (S x). destruct m; [lia|]. cbn. rewrite Ha by lia. reflexivity. Qed.
  Lemma rfac_par ts v r : rsum ts v (TRpar :: r) -> rfac (TLpar :: ts) v r.
  Proof. intros [x Ha]. one (S x). destruct m; [lia|]. cbn. rewrite Ha by lia. reflexivity. Qed.
  Lemma rfac_conj i j r : rfac (THam i j :: TConj :: r) (Cconj (ham i j)) r.
  Proof. one 1%nat. destruct m; [lia|]. reflexivity. Qed.
  Lemma rsum_one ts v r : rfac ts v r -> no_add r -> no_mul r -> rsum ts v r.
  Proof. intros H H1 H2. eapply rsum_i; [eapply rterm_i; [exact H|apply rmul_stop, H2]|apply radd_stop, H1]. Qed.

  (** ** f_dot_s *)
  Definition rnd (d : R) : R :=
    if Rlt_dec eps (Rabs d) then
      if Rle_dec (Rabs (Rabs d - 1)) eps then (if Rlt_dec d 0 then -1 else 1) else d
    else 0.
  Definition mag (d : R) : R := if Rle_dec (Rabs (Rabs d - 1)) eps then 1 else Rabs d.
  Lemma rterm_fds d a r : no_mul r -> rterm (fds_term d (TName a) ++ r) (Cre (mag d * k_val k a)) r.
  Proof.
    intros Hr. unfold fds_term, mag. destruct (Rle_dec _ _); cbn [app].
    - eapply rterm_i; [apply rfac_name|]. replace (1 * k_val k a)%R with (k_val k a) by ring. apply rmul_stop, Hr.
    - eapply rterm_i; [apply rfac_num|]. eapply rmul_i; [apply rfac_name|].
      replace (Cmul (Cre (Rabs d)) (Cre (k_val k a))) with (Cre (Rabs d * k_val k a)) by (ceq; ring). apply rmul_stop, Hr.
  Qed.
  (** the first term, with a minus sign *)
  Lemma rterm_neg d a r : no_mul r -> rterm (TSub :: fds_term d (TName a) ++ r) (Cre (- (mag d * k_val k a))) r.
  Proof.
    intros Hr. unfold fds_term, mag. destruct (Rle_dec _ _); cbn [app].
    - eapply rterm_i; [apply rfac_neg, rfac_name|]. replace (Cre (- (1 * k_val k a))) with (Copp (Cre (k_val k a))) by (ceq; ring). apply rmul_stop, Hr.
    - eapply rterm_i; [apply rfac_neg, rfac_num|]. eapply rmul_i; [apply rfac_name|].
      replace (Cre (- (Rabs d * k_val k a))) with (Cmul (Copp (Cre (Rabs d))) (Cre (k_val k a))) by (ceq; ring). apply rmul_stop, Hr.
  Qed.
  Definition chunk (q : R * tok) : list tok :=
    if Rlt_dec eps (Rabs (fst q)) then (if Rlt_dec (fst q) 0 then TSub else TAdd) :: fds_term (fst q) (snd q) else [].
  Lemma fds_flat l : forall acc, fold_left fds_step l acc = acc ++ flat_map chunk l.
  Proof.
    induction l as [|q l IH]; intros acc; cbn [fold_left flat_map]; [rewrite app_nil_r; reflexivity|].
    rewrite IH. unfold fds_step, chunk. destruct (Rlt_dec eps _); [rewrite <- app_assoc; reflexivity|reflexivity].
  Qed.
  Definition named (l : list (R * nat)) : list (R * tok) := map (fun q => (fst q, TName (snd q))) l.
  Definition fsum (l : list (R * nat)) : R := fold_right (fun q x => rnd (fst q) * k_val k (snd q) + x)%R 0%R l.
  Lemma chunks_no_mul l r : no_mul r -> no_mul (flat_map chunk l ++ r).
  Proof.
    intros Hr. induction l as [|[d t] l IH]; [exact Hr|]. cbn [flat_map]. unfold chunk at 1. cbn [fst snd].
    destruct (Rlt_dec eps _); [|exact IH]. destruct (Rlt_dec d 0); exact I.
  Qed.
  Lemma rnd_pos d : (eps < Rabs d)%R -> ~ (d < 0)%R -> rnd d = mag d.
  Proof. intros H1 H2. unfold rnd, mag. destruct (Rlt_dec eps _); [|contradiction]. destruct (Rlt_dec d 0); [contradiction|]. destruct (Rle_dec _ _); [reflexivity|]. rewrite Rabs_pos_eq; lra. Qed.
  Lemma rnd_neg d : (eps < Rabs d)%R -> (d < 0)%R -> rnd d = (- mag d)%R.
  Proof. intros H1 H2. unfold rnd, mag. destruct (Rlt_dec eps _); [|contradiction]. destruct (Rlt_dec d 0); [|contradiction]. destruct (Rle_dec _ _); [reflexivity|]. rewrite Rabs_left; lra. Qed.
  Lemma rnd_small d : ~ (eps < Rabs d)%R -> rnd d = 0%R.
  Proof. intros H. unfold rnd. destruct (Rlt_dec eps _); [contradiction|reflexivity]. Qed.

  Lemma radd_chunks l : forall x r, no_add r -> no_mul r -> radd (Cre x) (flat_map chunk (named l) ++ r) (Cre (x + fsum l)) r.
  Proof.
    induction l as [|[d a] l IH]; intros x r H1 H2.
    - cbn. replace (x + 0)%R with x by ring. apply radd_stop, H1.
    - cbn [named map flat_map fsum fold_right fst snd]. fold (named l) (fsum l). rewrite <- app_assoc. unfold chunk at 1. cbn [fst snd].
      destruct (Rlt_dec eps _) as [He|He].
      + cbn [app]. destruct (Rlt_dec d 0) as [Hd|Hd].
        * eapply radd_minus; [apply rterm_fds, chunks_no_mul, H2|].
          replace (Csub (Cre x) (Cre (mag d * k_val k a))) with (Cre (x + rnd d * k_val k a)) by (rewrite rnd_neg by assumption; ceq; ring).
          replace (x + (rnd d * k_val k a + fsum l))%R with (x + rnd d * k_val k a + fsum l)%R by ring. apply IH; assumption.
        * eapply radd_plus; [apply rterm_fds, chunks_no_mul, H2|].
          replace (Cadd (Cre x) (Cre (mag d * k_val k a))) with (Cre (x + rnd d * k_val k a)) by (rewrite rnd_pos by assumption; ceq; ring).
          replace (x + (rnd d * k_val k a + fsum l))%R with (x + rnd d * k_val k a + fsum l)%R by ring. apply IH; assumption.
      + cbn [app]. rewrite (rnd_small d He). replace (x + (0 * k_val k a + fsum l))%R with (x + fsum l)%R by ring. apply IH; assumption.
  Qed.
  Definition fds (l : list (R * nat)) : list tok := lstrip_plus (flat_map chunk (named l)).
  Lemma strip_term d a l : lstrip_plus (fds_term d (TName a) ++ l) = fds_term d (TName a) ++ l.
  Proof. unfold fds_term. destruct (Rle_dec _ _); reflexivity. Qed.
  Lemma fds_reads l : (fds l = [] -> fsum l = 0%R) /\
    (fds l <> [] -> forall r, no_add r -> no_mul r -> rsum (fds l ++ r) (Cre (fsum l)) r).
  Proof.
    induction l as [|[d a] l IH]; [split; [reflexivity|contradiction]|].
    unfold fds in *. cbn [named map flat_map fst snd fsum fold_right]. fold (named l) (fsum l). unfold chunk at 1 3 5. cbn [fst snd].
    destruct (Rlt_dec eps (Rabs d)) as [He|He].
    - destruct (Rlt_dec d 0) as [Hd|Hd]; cbn [app lstrip_plus].
      + split; [discriminate|]. intros _ r H1 H2. cbn [app]. rewrite <- app_assoc.
        eapply rsum_i; [apply rterm_neg, chunks_no_mul, H2|].
        replace (rnd d * k_val k a)%R with (- (mag d * k_val k a))%R by (rewrite rnd_neg by assumption; ring). apply radd_chunks; assumption.
      + rewrite strip_term. split.
        * unfold fds_term. destruct (Rle_dec _ _); discriminate.
        * intros _ r H1 H2. rewrite <- app_assoc. eapply rsum_i; [apply rterm_fds, chunks_no_mul, H2|].
          rewrite <- (rnd_pos d He Hd). apply radd_chunks; assumption.
    - cbn [app]. rewrite (rnd_small d He). replace (0 * k_val k a + fsum l)%R with (fsum l) by ring. exact IH.
  Qed.

  (** ** hk_term *)
  Definition rnd3 (d : vec R) : vec R := let '(x, y, z) := d in (rnd x, rnd y, rnd z).
  Definition tl3 (d : vec R) : list (R * nat) := let '(x, y, z) := d in [(x, 0%nat); (y, 1%nat); (z, 2%nat)].
  Lemma f_dot_s_fds d : f_dot_s (vlist d) k_labels = fds (tl3 d).
  Proof. destruct d as [[x y] z]. unfold f_dot_s, fds. rewrite fds_flat. reflexivity. Qed.
  Lemma fsum_dot d : fsum (tl3 d) = dot3 k (rnd3 d).
  Proof. destruct d as [[x y] z], k as [[ka kb] kc] eqn:E. unfold fsum. cbn [tl3 fold_right fst snd rnd3 dot3]. unfold k_val. rewrite E. cbn [sadd smul RScalar]. ring. Qed.
  Lemma rterm_hk e d r : no_mul r ->
    rterm (hk_term e (f_dot_s (vlist d) k_labels) ++ r) (Cmul e (phase Ccis Ctau k (rnd3 d))) r.
  Proof.
    intros Hr. rewrite f_dot_s_fds. destruct (fds_reads (tl3 d)) as [H0 H1]. rewrite fsum_dot in H0, H1.
    unfold phase. cbn [smul RScalar].
    assert (He : exp_i (Cre (dot3 k (rnd3 d))) = Ccis (Ctau * dot3 k (rnd3 d))) by reflexivity.
    destruct (fds (tl3 d)) as [|t l] eqn:Ef.
    - rewrite H0 by reflexivity. cbn [hk_term app]. eapply rterm_i; [apply rfac_num|]. eapply rmul_i; [apply rfac_num|].
      replace (Ccis (Ctau * 0)) with (Cre 1) by (rewrite Rmult_0_r; ceq; [symmetry; apply cos_0|symmetry; apply sin_0]). apply rmul_stop, Hr.
    - unfold hk_term. cbn [app]. eapply rterm_i; [apply rfac_num|]. eapply rmul_i.
      + apply rfac_exp. rewrite <- app_assoc. exact (H1 ltac:(discriminate) (TRpar :: r) I I).
      + rewrite He. apply rmul_stop, Hr.
  Qed.
  (** A formula that can be continued. *)
  Definition carries (ts : list tok) (v : Cplx) : Prop :=
    forall r w r', no_mul r -> radd v r w r' -> rsum (ts ++ r) w r'.
  Lemma carries_term e d : carries (hk_term e (f_dot_s (vlist d) k_labels)) (Cmul e (phase Ccis Ctau k (rnd3 d))).
  Proof. intros r w r' Hr H. eapply rsum_i; [apply rterm_hk, Hr|exact H]. Qed.
  Lemma carries_num z : carries [TNum z] z.
  Proof. intros r w r' Hr H. eapply rsum_i; [eapply rterm_i; [apply rfac_num|apply rmul_stop, Hr]|exact H]. Qed.
  Lemma carries_add ts v e d : carries ts v ->
    carries (ts ++ TAdd :: hk_term e (f_dot_s (vlist d) k_labels)) (Cadd v (Cmul e (phase Ccis Ctau k (rnd3 d)))).
  Proof.
    intros Hc r w r' Hr H. rewrite <- app_assoc. apply Hc; [exact I|]. cbn [app]. eapply radd_plus; [apply rterm_hk, Hr|exact H].
  Qed.
  Lemma carries_reads ts v : carries ts v -> reads k ham (TLpar :: ts ++ [TRpar]) v.
  Proof.
    intros Hc. change (rsum (TLpar :: ts ++ [TRpar]) v []). apply rsum_one; try exact I. apply rfac_par.
    apply Hc; [exact I|]. apply radd_stop. exact I.
  Qed.
  Lemma conj_reads i j : reads k ham [THam i j; TConj] (Cconj (ham i j)).
  Proof. change (rsum [THam i j; TConj] (Cconj (ham i j)) []). apply rsum_one; try exact I. apply rfac_conj. Qed.
End Read.

(** ** The dictionary of formulas. *)
Lemma pair_eq_ok p q : pair_eq p q = true <-> p = q.
Proof. destruct p as [a b], q as [c d]. unfold pair_eq. cbn [fst snd]. split; [intros H; f_equal; lia|intros [= -> ->]; lia]. Qed.
Lemma aget_aset {V} (d : list ((Z * Z) * V)) p q v :
  aget pair_eq (aset pair_eq d p v) q = if pair_eq q p then Some v else aget pair_eq d q.
Proof.
  induction d as [|[p' v'] d IH]; cbn [aset aget].
  - reflexivity.
  - destruct (pair_eq p p') eqn:H1; cbn [aget].
    + apply pair_eq_ok in H1. subst p'. destruct (pair_eq q p); reflexivity.
    + rewrite IH. destruct (pair_eq q p') eqn:H2; [|reflexivity]. apply pair_eq_ok in H2. subst p'.
      destruct (pair_eq q p) eqn:H3; [|reflexivity]. apply pair_eq_ok in H3. subst q. rewrite (proj2 (pair_eq_ok p p) eq_refl) in H1. discriminate.
Qed.
Lemma keys_aset {V} (d : list ((Z * Z) * V)) p v x : In x (map fst (aset pair_eq d p v)) <-> x = p \/ In x (map fst d).
Proof.
  induction d as [|[p' v'] d IH]; cbn [aset map fst In]; [intuition congruence|].
  destruct (pair_eq p p') eqn:H1; cbn [map fst In].
  - apply pair_eq_ok in H1. subst. intuition congruence.
  - rewrite IH. intuition congruence.
Qed.
Lemma nodup_aset {V} (d : list ((Z * Z) * V)) p v : NoDup (map fst d) -> NoDup (map fst (aset pair_eq d p v)).
Proof.
  induction d as [|[p' v'] d IH]; cbn [aset map fst]; intros H; [constructor; [intros []|constructor]|].
  inversion H as [|? ? H1 H2]; subst. destruct (pair_eq p p') eqn:E; cbn [map fst]; [exact H|].
  constructor; [|apply IH, H2]. rewrite keys_aset. intros [->|Hin]; [|contradiction].
  rewrite (proj2 (pair_eq_ok p p) eq_refl) in E. discriminate.
Qed.
Lemma aget_in {V} (d : list ((Z * Z) * V)) p v : NoDup (map fst d) -> In (p, v) d -> aget pair_eq d p = Some v.
Proof.
  induction d as [|[p' v'] d IH]; intros H Hin; [destruct Hin|]. cbn [map fst] in H. inversion H as [|? ? H1 H2]; subst. cbn [aget].
  destruct Hin as [[= -> ->]|Hin]; [rewrite (proj2 (pair_eq_ok p p) eq_refl); reflexivity|].
  destruct (pair_eq p p') eqn:E; [|apply IH; assumption]. apply pair_eq_ok in E. subst p'. exfalso. apply H1. apply (in_map fst) in Hin. exact Hin.
Qed.
Lemma aget_none {V} (d : list ((Z * Z) * V)) p : aget pair_eq d p = None -> forall v, ~ In (p, v) d.
Proof.
  induction d as [|[p' v'] d IH]; cbn [aget]; intros H v Hin; [destruct Hin|]. destruct (pair_eq p p') eqn:E; [discriminate|].
  destruct Hin as [[= -> ->]|Hin]; [rewrite (proj2 (pair_eq_ok p p) eq_refl) in E; discriminate|exact (IH H v Hin)].
Qed.

Section Hk.
  Context (k : R * R * R) (conv : Z) (pos : list (vec R)) (eng : list R).
  Notation term := (Z * Z * Z * (Z * Z) * Cplx)%type.
  Notation carries := (fun ts v => forall ham, carries k ham ts v).
  (** what the formula of an element should be worth *)
  Definition rval (d : vec R) (e : Cplx) : Cplx := Cmul e (phase Ccis Ctau k (rnd3 d)).
  Definition tdisp (t : term) : vec R := let '(rn, (i, j), _) := t in disp conv rn (at_pos pos i) (at_pos pos j).
  Definition rcontrib (a b : Z) (t : term) : Cplx :=
    let '(rn, (i, j), e) := t in
    Cadd (if (i =? a) && (j =? b) then rval (tdisp t) e else Cre 0)
         (if (j =? a) && (i =? b) then rval (vopp (tdisp t)) (Cconj e) else Cre 0).
  Definition want (f : Z -> Z -> Cplx) (hk : list ((Z * Z) * list tok)) : Prop :=
    NoDup (map fst hk) /\
    forall a b, match aget pair_eq hk (a, b) with Some ts => carries ts (f a b) | None => f a b = Cre 0 end.

  Lemma want_ext f g hk : (forall a b, f a b = g a b) -> want f hk -> want g hk.
  Proof. intros H [H1 H2]. split; [exact H1|]. intros a b. rewrite <- H. apply H2. Qed.
  Lemma want_add f hk i j e d : want f hk ->
    want (fun a b => if (a =? i) && (b =? j) then Cadd (f a b) (rval d e) else f a b) (add_hop hk (i, j) e (f_dot_s (vlist d) k_labels)).
  Proof.
    intros [H1 H2]. unfold add_hop. pose proof (H2 i j) as Hij. destruct (aget pair_eq hk (i, j)) as [t|] eqn:Et.
    - split; [apply nodup_aset, H1|]. intros a b. rewrite aget_aset. unfold pair_eq at 1. cbn [fst snd].
      destruct ((a =? i) && (b =? j)) eqn:E; [|apply H2]. replace a with i by lia. replace b with j by lia.
      intros ham. apply carries_add, Hij.
    - split; [apply nodup_aset, H1|]. intros a b. rewrite aget_aset. unfold pair_eq at 1. cbn [fst snd].
      destruct ((a =? i) && (b =? j)) eqn:E; [|apply H2]. replace a with i by lia. replace b with j by lia.
      intros ham. rewrite Hij. replace (Cadd (Cre 0) (rval d e)) with (rval d e) by (ceq; ring). apply carries_term.
  Qed.
  Lemma hop_dr_ok rn i j : 0 <= i < Z.of_nat (length pos) -> 0 <= j < Z.of_nat (length pos) ->
    hop_dr conv pos rn i j = Ok (disp conv rn (at_pos pos i) (at_pos pos j)).
  Proof.
    intros Hi Hj. unfold hop_dr, disp. destruct (conv =? 1); [|reflexivity].
    rewrite (aread_ok pos j vz0), (aread_ok pos i vz0) by assumption. cbn [bind]. unfold at_pos. f_equal.
    destruct (nth (Z.to_nat j) pos vz0) as [[x y] z], (nth (Z.to_nat i) pos vz0) as [[u v] w], rn as [[ra rb] rc].
    cbn [vZ vadd vsub sadd ssub RScalar]. f_equal; [f_equal|]; ring.
  Qed.
  Lemma want_steps l : forall f hk, Forall (in_range (Z.of_nat (length pos))) l -> want f hk ->
    exists hk', fold_left (hk_step conv pos) l (Ok hk) = Ok hk' /\ want (fun a b => Cadd (f a b) (esum (map (rcontrib a b) l))) hk'.
  Proof.
    induction l as [|[[rn [i j]] e] l IH]; intros f hk Hl Hw.
    - exists hk. split; [reflexivity|]. refine (want_ext _ _ _ _ Hw). intros. cbn [map]. rewrite esum_nil. ceq; ring.
    - inversion Hl as [|? ? Hij Hl']; subst. destruct Hij as [Hi Hj]. cbn [fold_left hk_step bind]. rewrite hop_dr_ok by assumption. cbn [bind].
      set (d := disp conv rn (at_pos pos i) (at_pos pos j)).
      pose proof (want_add _ _ j i (Cconj e) (vopp d) (want_add f hk i j e d Hw)) as Hw'.
      destruct (IH _ _ Hl' Hw') as (hk' & E1 & E2). exists hk'. split; [exact E1|].
      refine (want_ext _ _ _ _ E2). intros a b. cbn beta. cbn [map]. rewrite esum_cons. cbn [rcontrib tdisp]. fold d. cbn [sadd CScalar].
      rewrite (Z.eqb_sym i a), (Z.eqb_sym j b), (Z.eqb_sym j a), (Z.eqb_sym i b).
      destruct ((a =? i) && (b =? j)), ((a =? j) && (b =? i)); ceq; ring.
  Qed.
  Lemma want_onsite_from l : forall s f hk, want f hk -> (forall a b, Z.of_nat s <= a -> f a b = Cre 0) ->
    want (fun a b => if (a =? b) && (Z.of_nat s <=? a) then match nth_error l (Z.to_nat (a - Z.of_nat s)) with Some w => Cre w | None => Cre 0 end else f a b)
      (fold_left (fun hk (q : Z * R) => aset pair_eq hk (fst q, fst q) [TNum (Cre (snd q))]) (combine (map Z.of_nat (seq s (length l))) l) hk).
  Proof.
    induction l as [|w l IH]; intros s f hk Hw Hf.
    - cbn [length seq map combine fold_left]. refine (want_ext _ _ _ _ Hw). intros a b.
      destruct ((a =? b) && (Z.of_nat s <=? a)) eqn:E; [|reflexivity]. rewrite Hf by lia. destruct (Z.to_nat _); reflexivity.
    - cbn [length seq map combine fold_left fst snd].
      assert (Hw' : want (fun a b => if (a =? Z.of_nat s) && (b =? Z.of_nat s) then Cre w else f a b) (aset pair_eq hk (Z.of_nat s, Z.of_nat s) [TNum (Cre w)])).
      { destruct Hw as [H1 H2]. split; [apply nodup_aset, H1|]. intros a b. rewrite aget_aset. unfold pair_eq at 1. cbn [fst snd].
        destruct ((a =? Z.of_nat s) && (b =? Z.of_nat s)); [intros ham; apply carries_num|apply H2]. }
      refine (want_ext _ _ _ _ (IH (S s) _ _ Hw' _)).
      + intros a b. cbn beta. destruct (a =? b) eqn:Hab; cbn [andb].
        2:{ replace ((a =? Z.of_nat s) && (b =? Z.of_nat s)) with false by lia. reflexivity. }
        destruct (Z.eq_dec a (Z.of_nat s)) as [He|He].
        * replace (Z.of_nat (S s) <=? a) with false by lia. replace ((a =? Z.of_nat s) && (b =? Z.of_nat s)) with true by lia.
          replace (Z.of_nat s <=? a) with true by lia. replace (Z.to_nat (a - Z.of_nat s)) with O by lia. reflexivity.
        * replace ((a =? Z.of_nat s) && (b =? Z.of_nat s)) with false by lia. destruct (Z.of_nat s <=? a) eqn:Hs.
          -- replace (Z.of_nat (S s) <=? a) with true by lia. replace (Z.to_nat (a - Z.of_nat s)) with (S (Z.to_nat (a - Z.of_nat (S s)))) by lia. reflexivity.
          -- replace (Z.of_nat (S s) <=? a) with false by lia. reflexivity.
      + intros a b Ha. cbn beta. replace ((a =? Z.of_nat s) && (b =? Z.of_nat s)) with false by lia. apply Hf. lia.
  Qed.
  Lemma want_onsite : want (onsite Cre eng) (hk_onsite eng).
  Proof.
    unfold hk_onsite, zrange. refine (want_ext _ _ _ _ (want_onsite_from eng 0 (fun _ _ => Cre 0) [] _ _)).
    - intros a b. cbn beta. unfold onsite. change (Z.of_nat 0) with 0. rewrite Z.sub_0_r. reflexivity.
    - split; [constructor|]. intros a b. reflexivity.
    - reflexivity.
  Qed.

  (** ** Executing the lines. *)
  Lemma ex_app h l1 h1 l2 h2 : executes k h l1 h1 -> executes k h1 l2 h2 -> executes k h (l1 ++ l2) h2.
  Proof. induction 1 as [|ham i j ts v rest ham' Hr H IH]; intros H2; [exact H2|]. cbn [app]. econstructor; [exact Hr|apply IH, H2]. Qed.
  Lemma ex_set f (red : list ((Z * Z) * list tok)) : NoDup (map fst red) -> (forall a b ts, In ((a, b), ts) red -> carries ts (f a b)) ->
    forall h, executes k h (map (fun q => (fst q, TLpar :: snd q ++ [TRpar])) red)
      (fun a b => if existsb (fun q => pair_eq (a, b) (fst q)) red then f a b else h a b).
  Proof.
    induction red as [|[[i j] ts] red IH]; intros Hn Hf h; cbn [map fst snd].
    - constructor.
    - cbn [map fst] in Hn. inversion Hn as [|? ? Hi Hn']; subst. apply (ex_cons k h i j _ (f i j)).
      + apply carries_reads. intros. apply Hf. left. reflexivity.
      + pose proof (IH Hn' (fun a b ts' Hin => Hf a b ts' (or_intror Hin)) (fun a b => if (a =? i) && (b =? j) then f i j else h a b)) as Hg.
        match type of Hg with executes _ _ _ ?g => match goal with |- executes _ _ _ ?g' => assert (E : g = g') end end.
        { apply FunctionalExtensionality.functional_extensionality. intros a. apply FunctionalExtensionality.functional_extensionality. intros b.
          cbn [existsb fst]. unfold pair_eq at 2. cbn [fst snd]. destruct (existsb _ red); [rewrite orb_true_r; reflexivity|]. rewrite orb_false_r.
          destruct ((a =? i) && (b =? j)) eqn:E; [|reflexivity]. replace a with i by lia. replace b with j by lia. reflexivity. }
        rewrite <- E. exact Hg.
  Qed.
  Lemma ex_conj (red : list ((Z * Z) * list tok)) : (forall q, In q red -> fst (fst q) <= snd (fst q)) ->
    forall h, exists h', executes k h (flat_map (fun q : (Z * Z) * list tok => let '(i, j) := fst q in
        if i =? j then [] else [((j, i), [THam i j; TConj])]) red) h' /\
      forall a b, h' a b = if (b <? a) && existsb (fun q => pair_eq (b, a) (fst q)) red then Cconj (h b a) else h a b.
  Proof.
    induction red as [|[[i j] ts] red IH]; intros Hr h; cbn [flat_map fst].
    - exists h. split; [constructor|]. intros a b. cbn [existsb]. rewrite andb_false_r. reflexivity.
    - pose proof (Hr _ (or_introl eq_refl)) as Hij. cbn [fst snd] in Hij.
      assert (Hr' : forall q, In q red -> fst (fst q) <= snd (fst q)) by (intros; apply Hr; right; assumption).
      destruct (i =? j) eqn:E.
      + destruct (IH Hr' h) as (h' & H1 & H2). exists h'. split; [exact H1|]. intros a b. rewrite H2. cbn [existsb fst]. unfold pair_eq at 2. cbn [fst snd].
        destruct (b <? a) eqn:Eb; [|reflexivity]. replace ((b =? i) && (a =? j)) with false by lia. reflexivity.
      + destruct (IH Hr' (fun a b => if (a =? j) && (b =? i) then Cconj (h i j) else h a b)) as (h' & H1 & H2).
        exists h'. split; [cbn [app]; econstructor; [apply conj_reads|exact H1]|].
        intros a b. rewrite H2. cbn [existsb fst]. unfold pair_eq at 2. cbn [fst snd].
        destruct (b <? a) eqn:Eb; cbn [andb].
        * replace ((b =? j) && (a =? i)) with false by lia. destruct (existsb _ red); [rewrite orb_true_r; reflexivity|]. rewrite orb_false_r.
          destruct ((b =? i) && (a =? j)) eqn:E1.
          -- replace ((a =? j) && (b =? i)) with true by lia. replace b with i by lia. replace a with j by lia. reflexivity.
          -- replace ((a =? j) && (b =? i)) with false by lia. reflexivity.
        * replace ((a =? j) && (b =? i)) with false by lia. reflexivity.
  Qed.
  Lemma hk_lines_ok f hk : want f hk -> (forall a b, f a b = Cconj (f b a)) ->
    exists h, executes k (fun _ _ => Cre 0) (hk_lines hk) h /\ forall a b, h a b = f a b.
  Proof.
    intros [Hn Hw] Hh. unfold hk_lines. set (red := filter _ hk).
    assert (Hred : forall q, In q red <-> In q hk /\ fst (fst q) <= snd (fst q)).
    { intros q. unfold red. rewrite filter_In. rewrite Z.leb_le. reflexivity. }
    assert (Hnd : NoDup (map fst red)).
    { unfold red. clear -Hn. induction hk as [|q hk IH]; [constructor|]. cbn [map] in Hn. inversion Hn as [|? ? H1 H2]; subst. cbn [filter].
      destruct (_ <=? _); [|apply IH, H2]. cbn [map]. constructor; [|apply IH, H2].
      intros Hin. apply H1. apply in_map_iff in Hin. destruct Hin as (x & Hx & Hin). apply filter_In in Hin. rewrite <- Hx. apply in_map, Hin. }
    assert (Hc : forall a b ts, In ((a, b), ts) red -> carries ts (f a b)).
    { intros a b ts Hin. apply Hred in Hin. pose proof (Hw a b) as H. rewrite (aget_in hk (a, b) ts Hn (proj1 Hin)) in H. exact H. }
    pose proof (ex_set f red Hnd Hc (fun _ _ => Cre 0)) as H1.
    destruct (ex_conj red (fun q Hq => proj2 (proj1 (Hred q) Hq)) (fun a b => if existsb (fun q => pair_eq (a, b) (fst q)) red then f a b else Cre 0)) as (h & H2 & H3).
    exists h. split; [exact (ex_app _ _ _ _ _ H1 H2)|].
    assert (Hex : forall a b, a <= b -> (if existsb (fun q => pair_eq (a, b) (fst q)) red then f a b else Cre 0) = f a b).
    { intros a b Hab. destruct (existsb _ red) eqn:E; [reflexivity|]. pose proof (Hw a b) as H. destruct (aget pair_eq hk (a, b)) as [ts|] eqn:Eg; [|congruence].
      exfalso. assert (Hin : exists ts', In ((a, b), ts') hk).
      { clear -Eg. induction hk as [|[p v] hk IH]; [discriminate|]. cbn [aget] in Eg. destruct (pair_eq (a, b) p) eqn:E; [apply pair_eq_ok in E; subst p; exists v; left; reflexivity|].
        destruct (IH Eg) as (t & Ht). exists t. right. exact Ht. }
      destruct Hin as (ts' & Hin). assert (existsb (fun q => pair_eq (a, b) (fst q)) red = true) as Ht; [|congruence].
      apply existsb_exists. exists ((a, b), ts'). split; [apply Hred; split; assumption|]. apply pair_eq_ok. reflexivity. }
    intros a b. rewrite H3. destruct (b <? a) eqn:E; cbn [andb].
    - destruct (existsb (fun q => pair_eq (b, a) (fst q)) red) eqn:E1; [symmetry; apply Hh|].
      assert (H0 : f a b = Cre 0) by (rewrite Hh; rewrite <- (Hex b a) by lia; rewrite E1; ceq; ring). rewrite H0.
      replace (existsb (fun q => pair_eq (a, b) (fst q)) red) with false; [reflexivity|]. symmetry. apply not_true_iff_false. intros Ht.
      apply existsb_exists in Ht. destruct Ht as ([[x y] ts] & Hin & Hp). cbn [fst] in Hp. apply pair_eq_ok in Hp. injection Hp as <- <-.
      apply Hred in Hin. cbn [fst snd] in Hin. lia.
    - apply Hex. lia.
  Qed.

  (** ** Rounding. *)
  Lemma rnd_odd d : rnd (- d) = (- rnd d)%R.
  Proof.
    unfold rnd. rewrite Rabs_Ropp. destruct (Rlt_dec eps (Rabs d)) as [H|H]; [|ring].
    destruct (Rle_dec _ _); [|reflexivity]. assert (d <> 0)%R by (intros ->; rewrite Rabs_R0 in H; unfold eps in H; lra).
    destruct (Rlt_dec d 0), (Rlt_dec (- d) 0); lra.
  Qed.
  Lemma rnd3_opp d : rnd3 (vopp d) = vopp (rnd3 d).
  Proof. destruct d as [[x y] z]. cbn [vopp rnd3 sopp RScalar]. rewrite !rnd_odd. reflexivity. Qed.
  Lemma rnd_close d : (Rabs (rnd d - d) <= eps)%R.
  Proof.
    unfold rnd. destruct (Rlt_dec eps (Rabs d)) as [H|H].
    - destruct (Rle_dec _ _) as [H1|H1]; [|replace (d - d)%R with 0%R by ring; rewrite Rabs_R0; unfold eps; lra].
      destruct (Rlt_dec d 0).
      + rewrite (Rabs_left d) in H1 by assumption. replace (-1 - d)%R with (- d - 1)%R by ring. exact H1.
      + rewrite (Rabs_pos_eq d) in H1 by lra. replace (1 - d)%R with (- (d - 1))%R by ring. rewrite Rabs_Ropp. exact H1.
    - replace (0 - d)%R with (- d)%R by ring. rewrite Rabs_Ropp. lra.
  Qed.
  Lemma rnd_clean d : clean1 d -> rnd d = d.
  Proof.
    intros [H1 H2]. unfold rnd. fold eps in H1, H2. destruct (Rlt_dec eps (Rabs d)) as [H|H]; [|symmetry; apply H1; lra].
    destruct (Rle_dec _ _) as [H3|H3]; [|reflexivity]. apply H2 in H3. destruct (Rlt_dec d 0).
    - rewrite Rabs_left in H3 by assumption. lra.
    - rewrite Rabs_pos_eq in H3; lra.
  Qed.
  Lemma rnd3_clean d : clean d -> rnd3 d = d.
  Proof. destruct d as [[x y] z]. intros (H1 & H2 & H3). cbn [rnd3]. rewrite !rnd_clean by assumption. reflexivity. Qed.
  Lemma clean_Z r : clean (vZ (T := R) r).
  Proof.
    assert (H : forall n, clean1 (IZR n)).
    { intros n. split.
      - intros H. assert (n = 0); [|subst; reflexivity]. rewrite <- abs_IZR in H. assert (IZR (Z.abs n) < 1)%R as Hn by lra. apply lt_IZR in Hn. lia.
      - intros H. rewrite <- abs_IZR in *. rewrite <- minus_IZR, <- abs_IZR in H.
        assert (IZR (Z.abs (Z.abs n - 1)) < 1)%R as Hn by lra. apply lt_IZR in Hn. replace (Z.abs n) with 1 by lia. reflexivity. }
    destruct r as [[x y] z]. cbn [vZ sZ RScalar clean]. auto.
  Qed.

  Lemma cis_close x y : (Cmod (Csub (Ccis x) (Ccis y)) <= Rabs (x - y))%R.
  Proof.
    assert (Hs : forall t, (sin t * sin t <= t * t)%R).
    { intros t. destruct (Rtotal_order t 0) as [H|[->|H]].
      - destruct (Rle_dec (-1) t).
        + pose proof (sin_gt_x t H). pose proof PI2_1. assert (sin t < 0)%R by (apply sin_lt_0_var; lra). nra.
        + pose proof (SIN_bound t). nra.
      - rewrite sin_0. lra.
      - destruct (Rle_dec t 1).
        + pose proof (sin_lt_x t H). pose proof PI2_1. assert (0 < sin t)%R by (apply sin_gt_0; lra). nra.
        + pose proof (SIN_bound t). nra. }
    apply Rsqr_incr_0; [|apply Cmod_pos|apply Rabs_pos]. unfold Rsqr. rewrite Cmod_sq.
    rewrite <- Rabs_mult, Rabs_pos_eq by (replace ((x - y) * (x - y))%R with (Rsqr (x - y)) by reflexivity; apply Rle_0_sqr).
    cbn [Csub Ccis fst snd]. set (h := ((x - y) / 2)%R).
    assert (Ex : ((cos x - cos y) * (cos x - cos y) + (sin x - sin y) * (sin x - sin y) = 4 * (sin h * sin h))%R).
    { replace x with (y + h + h)%R by (unfold h; field). set (c := (y + h)%R). replace y with (c - h)%R by (unfold c; ring).
      rewrite cos_plus, sin_plus, cos_minus, sin_minus.
      pose proof (sin2_cos2 c) as Hc. unfold Rsqr in Hc.
      replace ((cos c * cos h - sin c * sin h - (cos c * cos h + sin c * sin h)) * (cos c * cos h - sin c * sin h - (cos c * cos h + sin c * sin h)) +
         (sin c * cos h + cos c * sin h - (sin c * cos h - cos c * sin h)) * (sin c * cos h + cos c * sin h - (sin c * cos h - cos c * sin h)))%R
       with (4 * (sin h * sin h) * (sin c * sin c + cos c * cos c))%R by ring. rewrite Hc. ring. }
    rewrite Ex. pose proof (Hs h). replace ((x - y) * (x - y))%R with (4 * (h * h))%R by (unfold h; field). lra.
  Qed.
  Definition ksize : R := let '(x, y, z) := k in (Rabs x + Rabs y + Rabs z)%R.
  Lemma phase_close d : (Cmod (Csub (phase Ccis Ctau k (rnd3 d)) (phase Ccis Ctau k d)) <= 2 * PI * eps * ksize)%R.
  Proof.
    unfold phase. eapply Rle_trans; [apply cis_close|]. unfold Ctau. cbn [smul RScalar]. rewrite <- Rmult_minus_distr_l, Rabs_mult.
    pose proof PI_RGT_0. rewrite (Rabs_pos_eq (2 * PI)) by lra. rewrite (Rmult_assoc (2 * PI)). apply Rmult_le_compat_l; [lra|].
    unfold ksize. destruct k as [[a b] c], d as [[x y] z]. cbn [rnd3 dot3 sadd smul RScalar].
    replace (a * rnd x + b * rnd y + c * rnd z - (a * x + b * y + c * z))%R with (a * (rnd x - x) + b * (rnd y - y) + c * (rnd z - z))%R by ring.
    eapply Rle_trans; [apply Rabs_triang|]. eapply Rle_trans; [apply Rplus_le_compat_r, Rabs_triang|]. rewrite !Rabs_mult.
    pose proof (rnd_close x). pose proof (rnd_close y). pose proof (rnd_close z).
    pose proof (Rabs_pos a). pose proof (Rabs_pos b). pose proof (Rabs_pos c). nra.
  Qed.

  (** ** The wanted values against those of set_ham. *)
  Lemma rcontrib_parts a b (l : list term) :
    esum (map (rcontrib a b) l) =
    esum (map (fun q : (Z * Z * Z) * Cplx => rval (disp conv (fst q) (at_pos pos a) (at_pos pos b)) (snd q)) (parts Cconj a b l)).
  Proof.
    unfold parts. rewrite map_app, (esum_app CLaws). induction l as [|[[rn [i j]] x] l IH]; cbn [map flat_map].
    - rewrite !esum_nil. ceq; ring.
    - rewrite esum_cons, IH. cbn [part1 part2 rcontrib tdisp]. rewrite !map_app, !(esum_app CLaws).
      assert (Hd : forall r ti tj, disp (T := R) conv (opp3 r) tj ti = vopp (disp conv r ti tj)) by (intros; apply (disp_opp RLaws)).
      destruct ((i =? a) && (j =? b)) eqn:H1, ((j =? a) && (i =? b)) eqn:H2; cbn [map fst snd]; rewrite ?esum_cons, ?esum_nil.
      + replace a with i by lia. replace b with j by lia. replace i with j by lia. rewrite Hd. ceq; ring.
      + replace a with i by lia. replace b with j by lia. ceq; ring.
      + replace a with j by lia. replace b with i by lia. rewrite Hd. ceq; ring.
      + ceq; ring.
  Qed.
  Lemma rcontrib_herm a b t : rcontrib a b t = Cconj (rcontrib b a t).
  Proof.
    destruct t as [[rn [i j]] e]. cbn [rcontrib tdisp]. set (d := disp _ _ _ _).
    assert (H : rval (vopp d) (Cconj e) = Cconj (rval d e)).
    { unfold rval. rewrite rnd3_opp. rewrite (phase_opp RLaws Cconj Ccis Ctau CPhase). ceq; ring. }
    rewrite H. destruct ((i =? a) && (j =? b)) eqn:E1, ((j =? a) && (i =? b)) eqn:E2.
    all: try replace ((i =? b) && (j =? a)) with true by lia; try replace ((i =? b) && (j =? a)) with false by lia.
    all: try replace ((j =? b) && (i =? a)) with true by lia; try replace ((j =? b) && (i =? a)) with false by lia.
    all: ceq; ring.
  Qed.
  Definition wanted (l : list term) (a b : Z) : Cplx := Cadd (onsite Cre eng a b) (esum (map (rcontrib a b) l)).
  Lemma wanted_herm l a b : wanted l a b = Cconj (wanted l b a).
  Proof.
    unfold wanted. change Cadd with (@sadd Cplx CScalar). rewrite (conj_add Cconj CStar), (conj_esum CLaws Cconj CStar), map_map. f_equal.
    - unfold onsite. rewrite (Z.eqb_sym b a). destruct (a =? b) eqn:E; cbn [andb]; [|ceq; ring]. replace b with a by lia.
      destruct (0 <=? a); [|ceq; ring]. destruct (nth_error eng _); ceq; ring.
    - f_equal. apply map_ext. intros. apply rcontrib_herm.
  Qed.
End Hk.
