(** Ladder operators of AtomicOrbital on arbitrary combinations of |l,m> (C66). *)
From Coq Require Import Reals Lra String.
From Verif Require Import Prelude Vec Cx M_soc.
Local Open Scope R_scope.

(** Legal states: what __setitem__ can build. *)
Definition legal_orb (c : coeffs) : Prop := NoDup (keys c) /\ Forall (fun k => check_qn k = true) (keys c).
(** The coefficient on |l,m>. *)
Definition coef (c : coeffs) (l m : Z) : Cplx := match aget qn_eqb c (l, m) with Some v => v | None => Cre 0 end.
Inductive built : coeffs -> Prop :=
| built_nil : built []
| built_set c k v c' : built c -> orb_set c k v = Ok c' -> built c'
| built_plus c : built c -> built (l_plus c)
| built_minus c : built c -> built (l_minus c)
| built_z c : built c -> built (l_z c)
| built_get c k v c' : built c -> orb_get c k = Ok (v, c') -> built c'.

Lemma qn_eqb_spec a b : reflect (a = b) (qn_eqb a b).
Proof. destruct a as [l m], b as [l' m']. unfold qn_eqb. cbn [fst snd]. destruct (Z.eqb_spec l l') as [->|N]; [|constructor; congruence]. destruct (Z.eqb_spec m m') as [->|N]; constructor; congruence. Qed.
Lemma get_set (c : coeffs) k v k' : aget qn_eqb (aset qn_eqb c k v) k' = if qn_eqb k' k then Some v else aget qn_eqb c k'.
Proof.
  induction c as [|[q w] c IH]; cbn [aset aget]; [reflexivity|]. destruct (qn_eqb_spec k q) as [->|N]; cbn [aget].
  - destruct (qn_eqb_spec k' q); reflexivity.
  - rewrite IH. destruct (qn_eqb_spec k' q) as [->|N']; [|reflexivity]. destruct (qn_eqb_spec q k); congruence.
Qed.
Lemma in_keys_set (c : coeffs) k v q : In q (keys (aset qn_eqb c k v)) <-> q = k \/ In q (keys c).
Proof.
  induction c as [|[q' w] c IH]; cbn [aset keys map In fst]; [intuition congruence|]. destruct (qn_eqb_spec k q') as [->|N]; cbn [keys map In fst]; [intuition congruence|]. unfold keys in IH. rewrite IH. intuition congruence.
Qed.
Lemma nodup_set (c : coeffs) k v : NoDup (keys c) -> NoDup (keys (aset qn_eqb c k v)).
Proof.
  induction c as [|[q w] c IH]; cbn [aset keys map fst]; intros H; [repeat constructor; intros []|]. inversion H as [|a l Ha Hl]; subst. destruct (qn_eqb_spec k q) as [->|N]; cbn [map fst].
  - exact H.
  - constructor; [|apply IH, Hl]. intros Hin. apply in_keys_set in Hin. destruct Hin as [E|Hin]; [congruence|]. exact (Ha Hin).
Qed.
Lemma legal_set c k v : legal_orb c -> check_qn k = true -> legal_orb (aset qn_eqb c k v).
Proof.
  intros (A & B) Hk. split; [apply nodup_set, A|]. rewrite Forall_forall in *. intros q Hq. apply in_keys_set in Hq. destruct Hq as [->|Hq]; [exact Hk|apply B, Hq].
Qed.
Lemma get_in (c : coeffs) k v : NoDup (keys c) -> In (k, v) c -> aget qn_eqb c k = Some v.
Proof.
  induction c as [|[q w] c IH]; cbn [keys map fst]; intros H Hin; [destruct Hin|]. inversion H as [|a l Ha Hl]; subst. cbn [aget]. destruct Hin as [[= -> ->]|Hin].
  - destruct (qn_eqb_spec k k); congruence.
  - destruct (qn_eqb_spec k q) as [->|N]; [|apply IH; assumption]. exfalso. apply Ha. apply in_map_iff. exists (q, v). split; [reflexivity|exact Hin].
Qed.
Lemma get_none (c : coeffs) k : ~ In k (keys c) -> aget qn_eqb c k = None.
Proof.
  induction c as [|[q w] c IH]; cbn [keys map fst aget In]; intros H; [reflexivity|]. destruct (qn_eqb_spec k q) as [->|N]; [exfalso; apply H; left; reflexivity|]. apply IH. intros Hin. apply H. right. exact Hin.
Qed.
Lemma get_some (c : coeffs) k v : aget qn_eqb c k = Some v -> In (k, v) c.
Proof.
  induction c as [|[q w] c IH]; cbn [aget]; [discriminate|]. destruct (qn_eqb_spec k q) as [->|N]; [intros [= ->]; left; reflexivity|]. intros H. right. apply IH, H.
Qed.
(** A shift of m by d with weights. *)
Definition shifted (d : Z) (w : Z -> Z -> R) (c : coeffs) (acc : coeffs) : coeffs :=
  fold_left (fun new kv => let '((l, m), v) := kv in if check_qn (l, m + d)%Z then aset qn_eqb new (l, m + d)%Z (Cmul v (Cre (w l m))) else new) c acc.
Lemma l_plus_shift c : l_plus c = shifted 1 (fun l m => sqrt (IZR ((l - m) * (l + m + 1)))) c [].
Proof. reflexivity. Qed.
Lemma l_minus_shift c : l_minus c = shifted (-1) (fun l m => sqrt (IZR ((l + m) * (l - m + 1)))) c [].
Proof. reflexivity. Qed.
Lemma shifted_get d w : forall c acc l m, NoDup (keys c) ->
  aget qn_eqb (shifted d w c acc) (l, m) = match aget qn_eqb c (l, m - d)%Z with Some v => if check_qn (l, m) then Some (Cmul v (Cre (w l (m - d)%Z))) else aget qn_eqb acc (l, m) | None => aget qn_eqb acc (l, m) end.
Proof.
  induction c as [|[[l' m'] v] c IH]; intros acc l m H; [reflexivity|]. cbn [keys map fst] in H. inversion H as [|a k Ha Hk]; subst. unfold shifted in *. cbn [fold_left]. rewrite IH by exact Hk. cbn [aget].
  destruct (qn_eqb_spec (l, m - d)%Z (l', m')) as [E|N].
  - injection E as <- <-. rewrite (get_none c) by exact Ha. replace (m - d + d)%Z with m by lia. destruct (check_qn (l, m)); [|reflexivity]. rewrite get_set. destruct (qn_eqb_spec (l, m) (l, m)); congruence.
  - assert (G : aget qn_eqb (if check_qn (l', (m' + d)%Z) then aset qn_eqb acc (l', (m' + d)%Z) (Cmul v (Cre (w l' m'))) else acc) (l, m) = aget qn_eqb acc (l, m)).
    { destruct (check_qn (l', (m' + d)%Z)); [|reflexivity]. rewrite get_set. destruct (qn_eqb_spec (l, m) (l', (m' + d)%Z)) as [E|]; [|reflexivity]. injection E as -> ->. exfalso. apply N. f_equal. lia. }
    rewrite G. reflexivity.
Qed.
Lemma shifted_legal d w : forall c acc, legal_orb acc -> legal_orb (shifted d w c acc).
Proof.
  induction c as [|[[l m] v] c IH]; intros acc H; [exact H|]. unfold shifted in *. cbn [fold_left]. apply IH. destruct (check_qn (l, (m + d)%Z)) eqn:E; [apply legal_set; assumption|exact H].
Qed.
Lemma legal_nil : legal_orb [].
Proof. split; constructor. Qed.
Lemma keys_lz c : keys (l_z c) = keys c.
Proof. unfold keys, l_z. rewrite map_map. reflexivity. Qed.
(** Every reachable orbital is legal. *)
Theorem C66_legal : forall c, built c -> legal_orb c.
Proof.
  intros c H. induction H as [|c k v c' _ IH E|c _ _|c _ _|c _ IH|c k v c' _ IH E].
  - apply legal_nil.
  - unfold orb_set in E. destruct (check_qn k) eqn:Ek; [|discriminate]. injection E as <-. apply legal_set; assumption.
  - rewrite l_plus_shift. apply shifted_legal, legal_nil.
  - rewrite l_minus_shift. apply shifted_legal, legal_nil.
  - destruct IH as (A & B). split; rewrite keys_lz; assumption.
  - unfold orb_get in E. destruct (check_qn k) eqn:Ek; [|discriminate]. destruct (aget qn_eqb c k); injection E as <- <-; [exact IH|]. apply legal_set; assumption.
Qed.
Print Assumptions C66_legal.
Lemma coef_legal c l m : legal_orb c -> check_qn (l, m) = false -> coef c l m = Cre 0.
Proof.
  intros (_ & B) H. unfold coef. destruct (aget qn_eqb c (l, m)) as [v|] eqn:E; [|reflexivity]. apply get_some in E. rewrite Forall_forall in B. specialize (B (l, m)). rewrite B in H; [discriminate|]. apply in_map_iff. exists ((l, m), v). split; [reflexivity|exact E].
Qed.
(** ** The operators *)
Theorem C66_plus : forall c l m, legal_orb c -> coef (l_plus c) l m = Cmul (coef c l (m - 1)) (Cre (sqrt (IZR ((l - m + 1) * (l + m))))).
Proof.
  intros c l m (A & B). rewrite l_plus_shift. unfold coef at 1. rewrite shifted_get by exact A. unfold coef. cbn [aget].
  destruct (aget qn_eqb c (l, (m - 1)%Z)) as [v|] eqn:E.
  - replace ((l - (m - 1)) * (l + (m - 1) + 1))%Z with ((l - m + 1) * (l + m))%Z by lia. destruct (check_qn (l, m)) eqn:K; [reflexivity|].
    apply get_some in E. rewrite Forall_forall in B. specialize (B (l, (m - 1)%Z)). assert (Hc : check_qn (l, (m - 1)%Z) = true) by (apply B, in_map_iff; eexists; split; [|exact E]; reflexivity).
    unfold check_qn in K, Hc. cbn [fst snd] in K, Hc. assert (Hm : (l - m + 1 = 0)%Z) by lia. rewrite Hm, Z.mul_0_l. rewrite sqrt_0. apply Ceq; cbn; ring.
  - apply Ceq; cbn; ring.
Qed.
Print Assumptions C66_plus.
Theorem C66_minus : forall c l m, legal_orb c -> coef (l_minus c) l m = Cmul (coef c l (m + 1)) (Cre (sqrt (IZR ((l + m + 1) * (l - m))))).
Proof.
  intros c l m (A & B). rewrite l_minus_shift. unfold coef at 1. rewrite shifted_get by exact A. unfold coef. cbn [aget]. replace (m - -1)%Z with (m + 1)%Z by lia.
  destruct (aget qn_eqb c (l, (m + 1)%Z)) as [v|] eqn:E.
  - replace ((l + (m + 1)) * (l - (m + 1) + 1))%Z with ((l + m + 1) * (l - m))%Z by lia. destruct (check_qn (l, m)) eqn:K; [reflexivity|].
    apply get_some in E. rewrite Forall_forall in B. specialize (B (l, (m + 1)%Z)). assert (Hc : check_qn (l, (m + 1)%Z) = true) by (apply B, in_map_iff; eexists; split; [|exact E]; reflexivity).
    unfold check_qn in K, Hc. cbn [fst snd] in K, Hc. assert (Hm : (l + m + 1 = 0)%Z) by lia. rewrite Hm, Z.mul_0_l. rewrite sqrt_0. apply Ceq; cbn; ring.
  - apply Ceq; cbn; ring.
Qed.
Print Assumptions C66_minus.
Theorem C66_z : forall c l m, coef (l_z c) l m = Cmul (Cre (IZR m)) (coef c l m).
Proof.
  intros c l m. unfold coef, l_z. induction c as [|[[l' m'] v] c IH]; cbn [map aget fst snd]; [apply Ceq; cbn; ring|].
  destruct (qn_eqb_spec (l, m) (l', m')) as [[= -> ->]|N]; [apply Ceq; cbn; ring|exact IH].
Qed.
Print Assumptions C66_z.
Lemma legal_plus c : legal_orb (l_plus c).
Proof. rewrite l_plus_shift. apply shifted_legal, legal_nil. Qed.
Lemma legal_minus c : legal_orb (l_minus c).
Proof. rewrite l_minus_shift. apply shifted_legal, legal_nil. Qed.
Lemma two_roots v x : (0 <= x)%Z -> Cmul (Cmul v (Cre (sqrt (IZR x)))) (Cre (sqrt (IZR x))) = Cmul (Cre (IZR x)) v.
Proof. intros H. assert (Q : sqrt (IZR x) * sqrt (IZR x) = IZR x) by (apply sqrt_sqrt; apply (IZR_le 0); exact H). apply Ceq; cbn; ring [Q]. Qed.
Lemma mp c l m : legal_orb c -> coef (l_minus (l_plus c)) l m = Cmul (Cre (IZR ((l - m) * (l + m + 1)))) (coef c l m).
Proof.
  intros H. rewrite C66_minus by apply legal_plus. rewrite C66_plus by exact H. replace (m + 1 - 1)%Z with m by lia. replace ((l - (m + 1) + 1) * (l + (m + 1)))%Z with ((l + m + 1) * (l - m))%Z by lia.
  destruct (check_qn (l, m)) eqn:E.
  - rewrite two_roots by (unfold check_qn in E; cbn [fst snd] in E; nia). f_equal. f_equal. f_equal. lia.
  - rewrite (coef_legal _ _ _ H E). apply Ceq; cbn; ring.
Qed.
Lemma pm c l m : legal_orb c -> coef (l_plus (l_minus c)) l m = Cmul (Cre (IZR ((l + m) * (l - m + 1)))) (coef c l m).
Proof.
  intros H. rewrite C66_plus by apply legal_minus. rewrite C66_minus by exact H. replace (m - 1 + 1)%Z with m by lia. replace ((l + (m - 1) + 1) * (l - (m - 1)))%Z with ((l - m + 1) * (l + m))%Z by lia.
  destruct (check_qn (l, m)) eqn:E.
  - rewrite two_roots by (unfold check_qn in E; cbn [fst snd] in E; nia). f_equal. f_equal. f_equal. lia.
  - rewrite (coef_legal _ _ _ H E). apply Ceq; cbn; ring.
Qed.
(** [l+, l-] = 2 lz, [lz, l+] = l+, [lz, l-] = - l-, and l^2 = l (l + 1) *)
Theorem C66_commutators : forall c l m, legal_orb c ->
  Csub (coef (l_plus (l_minus c)) l m) (coef (l_minus (l_plus c)) l m) = Cmul (Cre 2) (coef (l_z c) l m)
  /\ Csub (coef (l_z (l_plus c)) l m) (coef (l_plus (l_z c)) l m) = coef (l_plus c) l m
  /\ Csub (coef (l_z (l_minus c)) l m) (coef (l_minus (l_z c)) l m) = Copp (coef (l_minus c) l m).
Proof.
  intros c l m H. assert (Hz : legal_orb (l_z c)) by (destruct H as (A & B); split; rewrite keys_lz; assumption).
  rewrite mp, pm by exact H. rewrite !C66_z, (C66_plus _ _ _ Hz), (C66_minus _ _ _ Hz), !C66_z, (C66_plus _ _ _ H), (C66_minus _ _ _ H).
  rewrite !mult_IZR, !plus_IZR, !minus_IZR, ?plus_IZR.
  repeat split; match goal with |- _ = ?r => idtac end; apply Ceq; cbn -[Rmult Rplus Rminus IZR]; ring.
Qed.
Print Assumptions C66_commutators.
Theorem C66_casimir : forall c l m, legal_orb c ->
  Cadd (coef (l_minus (l_plus c)) l m) (Cadd (coef (l_z (l_z c)) l m) (coef (l_z c) l m)) = Cmul (Cre (IZR l * (IZR l + 1))) (coef c l m).
Proof.
  intros c l m H. rewrite mp by exact H. rewrite !C66_z. rewrite !mult_IZR, !plus_IZR, !minus_IZR. apply Ceq; cbn -[Rmult Rplus Rminus IZR]; ring.
Qed.
Print Assumptions C66_casimir.

(** ** The product and adjoints *)
Definition csum {A} (f : A -> Cplx) (l : list A) : Cplx := fold_right (fun a s => Cadd (f a) s) (Cre 0) l.
Lemma csum_ext {A} (f g : A -> Cplx) l : (forall a, In a l -> f a = g a) -> csum f l = csum g l.
Proof. induction l as [|a l IH]; intros H; [reflexivity|]. unfold csum in *. cbn [fold_right]. rewrite H by (left; reflexivity). rewrite IH by (intros b Hb; apply H; right; exact Hb). reflexivity. Qed.
Lemma csum_0 {A} (l : list A) : csum (fun _ => Cre 0) l = Cre 0.
Proof. induction l as [|a l IH]; [reflexivity|]. unfold csum in *. cbn [fold_right]. rewrite IH. apply Ceq; cbn; ring. Qed.
Lemma csum_add {A} (f g : A -> Cplx) l : csum (fun a => Cadd (f a) (g a)) l = Cadd (csum f l) (csum g l).
Proof. induction l as [|a l IH]; unfold csum in *; cbn [fold_right]; [apply Ceq; cbn; ring|]. rewrite IH. apply Ceq; cbn; ring. Qed.
Lemma csum_swap {A B} (f : A -> B -> Cplx) l k : csum (fun a => csum (f a) k) l = csum (fun b => csum (fun a => f a b) l) k.
Proof.
  induction l as [|a l IH]; [cbn [csum fold_right]; symmetry; apply csum_0|]. transitivity (Cadd (csum (f a) k) (csum (fun a => csum (f a) k) l)); [reflexivity|]. rewrite IH, <- csum_add. apply csum_ext. intros b _. reflexivity.
Qed.
Lemma csum_conj {A} (f : A -> Cplx) l : Cconj (csum f l) = csum (fun a => Cconj (f a)) l.
Proof. induction l as [|a l IH]; unfold csum in *; cbn [fold_right]; [apply Ceq; cbn; ring|]. rewrite <- IH. apply Ceq; cbn; ring. Qed.
Lemma csum_scale {A} (f : A -> Cplx) z l : csum (fun a => Cmul z (f a)) l = Cmul z (csum f l).
Proof. induction l as [|a l IH]; unfold csum in *; cbn [fold_right]; [apply Ceq; cbn; ring|]. rewrite IH. apply Ceq; cbn; ring. Qed.
Lemma product_from_ok : forall bra acc ket, Forall (fun k => check_qn k = true) (keys bra) ->
  exists ket', product_from acc bra ket = Ok (Cadd acc (csum (fun kv => Cmul (Cconj (snd kv)) (coef ket (fst (fst kv)) (snd (fst kv)))) bra), ket') /\ (forall l m, coef ket' l m = coef ket l m).
Proof.
  induction bra as [|[[l m] v] bra IH]; intros acc ket H.
  - exists ket. split; [|reflexivity]. cbn [product_from csum fold_right]. apply f_equal. apply f_equal2; [apply Ceq; cbn; ring|reflexivity].
  - cbn [keys map fst] in H. inversion H as [|a k Ha Hk]; subst. cbn [product_from]. unfold orb_get. rewrite Ha. cbn [fst snd].
    assert (G : forall ket1, (forall l m, coef ket1 l m = coef ket l m) ->
      exists ket', product_from (Cadd acc (Cmul (Cconj v) (coef ket l m))) bra ket1 = Ok (Cadd acc (csum (fun kv => Cmul (Cconj (snd kv)) (coef ket (fst (fst kv)) (snd (fst kv)))) (((l, m), v) :: bra)), ket') /\ (forall l m, coef ket' l m = coef ket l m)).
    { intros ket1 H1. destruct (IH (Cadd acc (Cmul (Cconj v) (coef ket l m))) ket1 Hk) as (ket' & E & F). exists ket'. split; [|intros l' m'; rewrite F; apply H1]. rewrite E. apply f_equal. apply f_equal2; [|reflexivity].
      rewrite (csum_ext _ (fun kv => Cmul (Cconj (snd kv)) (coef ket (fst (fst kv)) (snd (fst kv))))) by (intros kv _; rewrite H1; reflexivity). unfold csum. cbn [fold_right fst snd].
      generalize (fold_right (fun (a : qn * Cplx) (s : Cplx) => Cadd (Cmul (Cconj (snd a)) (coef ket (fst (fst a)) (snd (fst a)))) s) (Cre 0) bra). intros z. apply Ceq; cbn; ring. }
    destruct (aget qn_eqb ket (l, m)) as [w|] eqn:E; cbn [bind fst snd].
    + assert (Ec : coef ket l m = w) by (unfold coef; rewrite E; reflexivity). rewrite Ec in G. apply G. reflexivity.
    + assert (Ec : coef ket l m = Cre 0) by (unfold coef; rewrite E; reflexivity). rewrite Ec in G. apply G. intros l' m'. unfold coef. rewrite get_set. destruct (qn_eqb_spec (l', m') (l, m)) as [[= -> ->]|N]; [rewrite E; reflexivity|reflexivity].
Qed.
Definition braket (bra ket : coeffs) : Cplx := csum (fun kv => Cmul (Cconj (snd kv)) (coef ket (fst (fst kv)) (snd (fst kv)))) bra.
(** The product never fails on legal orbitals, is the sum over common |l,m>, and
    only adds zero coefficients to the ket. *)
Theorem C66_product : forall bra ket, legal_orb bra -> exists ket', product bra ket = Ok (braket bra ket, ket') /\ (forall l m, coef ket' l m = coef ket l m).
Proof.
  intros bra ket (_ & B). destruct (product_from_ok bra (Cre 0) ket B) as (ket' & E & F). exists ket'. split; [|exact F]. unfold product. rewrite E. apply f_equal. apply f_equal2; [|reflexivity]. unfold braket. apply Ceq; cbn; ring.
Qed.
Print Assumptions C66_product.
(** A coefficient as a sum over the dictionary. *)
Lemma coef_sum c l m : NoDup (keys c) -> coef c l m = csum (fun kv => if qn_eqb (l, m) (fst kv) then snd kv else Cre 0) c.
Proof.
  intros H. unfold coef. induction c as [|[q v] c IH]; [reflexivity|]. cbn [keys map fst] in H. inversion H as [|a k Ha Hk]; subst. unfold csum in *. cbn [aget fold_right fst snd].
  destruct (qn_eqb_spec (l, m) q) as [E|N].
  - rewrite <- (IH Hk). subst q. rewrite get_none by exact Ha. apply Ceq; cbn; ring.
  - rewrite (IH Hk). apply Ceq; cbn; ring.
Qed.
Lemma adjoint_gen bra ket (f : Z -> Z -> Cplx) d : NoDup (keys bra) -> NoDup (keys ket) ->
  csum (fun kv => Cmul (Cconj (snd kv)) (Cmul (coef ket (fst (fst kv)) (snd (fst kv) + d)) (f (fst (fst kv)) (snd (fst kv))))) bra
  = Cconj (csum (fun kv => Cmul (Cconj (snd kv)) (Cmul (coef bra (fst (fst kv)) (snd (fst kv) - d)) (Cconj (f (fst (fst kv)) (snd (fst kv) - d)%Z)))) ket).
Proof.
  intros Hb Hk. rewrite csum_conj.
  transitivity (csum (fun kv : qn * Cplx => csum (fun kw : qn * Cplx => if qn_eqb (fst (fst kv), snd (fst kv) + d)%Z (fst kw) then Cmul (Cmul (Cconj (snd kv)) (snd kw)) (f (fst (fst kv)) (snd (fst kv))) else Cre 0) ket) bra).
  - apply csum_ext. intros [[l m] v] _. cbn [fst snd]. rewrite (coef_sum ket) by exact Hk. transitivity (Cmul (Cmul (Cconj v) (f l m)) (csum (fun kv : qn * Cplx => if qn_eqb (l, m + d)%Z (fst kv) then snd kv else Cre 0) ket)).
    + generalize (csum (fun kv : qn * Cplx => if qn_eqb (l, m + d)%Z (fst kv) then snd kv else Cre 0) ket). intros z. apply Ceq; cbn; ring.
    + rewrite <- csum_scale. apply csum_ext. intros [q w] _. cbn [fst snd]. destruct (qn_eqb (l, (m + d)%Z) q); apply Ceq; cbn; ring.
  - rewrite csum_swap. apply csum_ext. intros [[l m] w] _. cbn [fst snd]. rewrite (coef_sum bra) by exact Hb.
    transitivity (Cmul (Cmul w (f l (m - d)%Z)) (Cconj (csum (fun kv : qn * Cplx => if qn_eqb (l, m - d)%Z (fst kv) then snd kv else Cre 0) bra))).
    + rewrite csum_conj, <- csum_scale. apply csum_ext. intros [[l' m'] v] _. cbn [fst snd]. destruct (qn_eqb_spec (l', (m' + d)%Z) (l, m)) as [[= -> E]|N].
      * replace (m - d)%Z with m' by lia. destruct (qn_eqb_spec (l, m') (l, m')); [|congruence]. apply Ceq; cbn; ring.
      * destruct (qn_eqb_spec (l, (m - d)%Z) (l', m')) as [[= -> E]|N']; [exfalso; apply N; f_equal; lia|]. apply Ceq; cbn; ring.
    + generalize (csum (fun kv : qn * Cplx => if qn_eqb (l, m - d)%Z (fst kv) then snd kv else Cre 0) bra). intros z. apply Ceq; cbn; ring.
Qed.
Open Scope string_scope.
(** <a|l+|b> is the conjugate of <b|l-|a>, and lz is Hermitian. *)
Lemma mtxel_ok bra ket op c : legal_orb bra -> (op = "l+" /\ c = l_plus ket \/ op = "l-" /\ c = l_minus ket \/ op = "lz" /\ c = l_z ket) -> mtxel bra ket op = Ok (braket bra c).
Proof.
  intros Hb H. destruct (C66_product bra c Hb) as (k' & E & _). unfold mtxel. destruct H as [(-> & ->)|[(-> & ->)|(-> & ->)]]; cbn [String.eqb Ascii.eqb Bool.eqb bind]; rewrite E; reflexivity.
Qed.
Theorem C66_adjoint : forall a b, legal_orb a -> legal_orb b -> exists p z,
  mtxel a b "l+" = Ok p /\ mtxel b a "l-" = Ok (Cconj p) /\ mtxel a b "lz" = Ok z /\ mtxel b a "lz" = Ok (Cconj z).
Proof.
  intros a b Ha Hb. exists (braket a (l_plus b)), (braket a (l_z b)).
  rewrite (mtxel_ok a b "l+" _ Ha (or_introl (conj eq_refl eq_refl))), (mtxel_ok b a "l-" (l_minus a) Hb) by (right; left; split; reflexivity). rewrite (mtxel_ok a b "lz" (l_z b) Ha), (mtxel_ok b a "lz" (l_z a) Hb) by (right; right; split; reflexivity).
  repeat split; apply f_equal.
  - enough (X : braket a (l_plus b) = Cconj (braket b (l_minus a))) by (rewrite X; apply Ceq; cbn; ring).
    unfold braket. rewrite (csum_ext _ (fun kv => Cmul (Cconj (snd kv)) (Cmul (coef b (fst (fst kv)) (snd (fst kv) + -1)) (Cre (sqrt (IZR ((fst (fst kv) - snd (fst kv) + 1) * (fst (fst kv) + snd (fst kv))))))))) by (intros [[l m] v] _; cbn [fst snd]; rewrite C66_plus by exact Hb; reflexivity).
    rewrite (adjoint_gen a b (fun l m => Cre (sqrt (IZR ((l - m + 1) * (l + m))))) (-1)%Z (proj1 Ha) (proj1 Hb)).
    apply f_equal, csum_ext. intros [[l m] v] _. cbn [fst snd]. rewrite C66_minus by exact Ha. replace (m - -1)%Z with (m + 1)%Z by lia. replace ((l - (m + 1) + 1) * (l + (m + 1)))%Z with ((l + m + 1) * (l - m))%Z by lia. apply f_equal. apply Ceq; cbn; ring.
  - enough (X : braket a (l_z b) = Cconj (braket b (l_z a))) by (rewrite X; apply Ceq; cbn; ring).
    unfold braket. rewrite (csum_ext _ (fun kv => Cmul (Cconj (snd kv)) (Cmul (coef b (fst (fst kv)) (snd (fst kv) + 0)) (Cre (IZR (snd (fst kv))))))) by (intros [[l m] v] _; cbn [fst snd]; rewrite C66_z, Z.add_0_r; f_equal; apply Ceq; cbn; ring).
    rewrite (adjoint_gen a b (fun l m => Cre (IZR m)) 0%Z (proj1 Ha) (proj1 Hb)).
    apply f_equal, csum_ext. intros [[l m] v] _. cbn [fst snd]. rewrite C66_z. replace (m - 0)%Z with m by lia. f_equal. apply Ceq; cbn; ring.
Qed.
Print Assumptions C66_adjoint.
(** px in a shell of any l, built by the interface, is a legal orbital; illegal
    quantum numbers are refused. *)
Example C66_ex : exists c, orb2 (3, -1)%Z (Cre 1) (3, 3)%Z (0, 1) = Ok c /\ built c /\ coef (l_minus c) 3 2 = Cmul (0, 1) (Cre (sqrt 6)) /\ orb_set c (1, 2)%Z (Cre 1) = Err ValueError.
Proof.
  eexists. split; [reflexivity|]. split; [|split; [|reflexivity]].
  - eapply built_set with (k := (3, 3)%Z) (v := (0, 1)); [eapply built_set with (k := (3, -1)%Z) (v := Cre 1); [apply built_nil|reflexivity]|reflexivity].
  - reflexivity.
Qed.
