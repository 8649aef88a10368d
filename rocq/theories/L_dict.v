(** Dictionaries of hopping matrices whose entries are the values of exact
    numbers, and the amplitudes of a cell they are applied to. *)
From Verif Require Import Prelude Vec M_hop M_pc M_super M_hopdict M_kane S_pc S_super S_build S_mat S_hopdict L_base L_hop L_pc L_super L_build L_mat P_hopdict P_graphene Kf L_sym.

Section Map.
  Context {K E : Type} {SK : Scalar K} {SE : Scalar E} (h : K -> E).
  Definition st_map (m : M_hopdict.stored K) : M_hopdict.stored E :=
    match m with Dense l => Dense (map (map h) l) | Coo l => Coo (map (fun t : Z * Z * K => (fst t, h (snd t))) l) end.
  Definition en_map (q : rn3 * M_hopdict.stored K) : rn3 * M_hopdict.stored E := (fst q, st_map (snd q)).
  Definition hd_map (d : hd K) : hd E := {| d_num := d_num d; d_hops := map en_map (d_hops d) |}.
  Definition dop_map (o : dop K) : dop E := match o with DSet rn m => DSet rn (map (map h) m) | DItem rn i j e => DItem rn i j (h e) end.
  Lemma aget_map (l : list (rn3 * M_hopdict.stored K)) r : aget rn_eqb (map en_map l) r = option_map st_map (aget rn_eqb l r).
  Proof using. induction l as [|[k v] l IH]; [reflexivity|]. cbn. destruct (rn_eqb r k); [reflexivity|exact IH]. Qed.
  Lemma aset_map (l : list (rn3 * M_hopdict.stored K)) r m : aset rn_eqb (map en_map l) r (st_map m) = map en_map (aset rn_eqb l r m).
  Proof using. induction l as [|[k v] l IH]; [reflexivity|]. cbn. destruct (rn_eqb r k); [reflexivity|]. cbn. rewrite IH. reflexivity. Qed.
  Lemma put_map d r m : hd_put (hd_map d) r (st_map m) = hd_map (hd_put d r m).
  Proof using. unfold hd_put, hd_map. cbn [d_num d_hops]. rewrite aset_map. reflexivity. Qed.
  Lemma shape_map n (m : list (list K)) : shape_is n (map (map h) m) = shape_is n m.
  Proof using. unfold shape_is. rewrite map_length. f_equal. induction m as [|row m IH]; [reflexivity|]. cbn. rewrite map_length, IH. reflexivity. Qed.
  Lemma set_nth_map {A B} (f : A -> B) k (l : list A) x : set_nth k (map f l) (f x) = map f (set_nth k l x).
  Proof using. revert k. induction l as [|y l IH]; intros [|k]; cbn; try reflexivity. rewrite IH. reflexivity. Qed.
  Lemma enum_map {A B} (f : A -> B) (l : list A) : enum (map f l) = map (fun q => (fst q, f (snd q))) (enum l).
  Proof using.
    unfold enum. rewrite map_length. generalize (zrange (length l)). induction l as [|x l IH]; intros [|k ks]; cbn; try reflexivity. rewrite IH. reflexivity.
  Qed.
  Lemma diag_map (m : list (list K)) : diag (map (map h) m) = map h (diag m).
  Proof using.
    unfold diag. rewrite enum_map. induction (enum m) as [|[i row] l IH]; [reflexivity|]. cbn [map flat_map fst snd]. rewrite IH, map_app. f_equal. rewrite nth_error_map. destruct (nth_error row (Z.to_nat i)); reflexivity.
  Qed.
  Lemma at_map (m : list (list K)) i j : h s0 = s0 -> at_ (map (map h) m) i j = h (at_ m i j).
  Proof using.
    intros h0. unfold at_. change (@nil E) with (map h []). rewrite map_nth. rewrite <- h0. apply map_nth.
  Qed.

  Context (h0 : h s0 = s0).
  Lemma zeros_map n : map (map h) (zeros n) = zeros n.
  Proof using h0. unfold zeros. assert (Hr : forall (A B : Type) (f : A -> B) x k, map f (repeat x k) = repeat (f x) k) by (intros A B f x k; induction k as [|k IH]; [reflexivity|cbn; rewrite IH; reflexivity]). rewrite Hr, Hr, h0. reflexivity. Qed.
  Lemma item_map d rn i j e : fst (hd_item (hd_map d) rn i j (h e)) = hd_map (fst (hd_item d rn i j e)) /\ snd (hd_item (hd_map d) rn i j (h e)) = snd (hd_item d rn i j e).
  Proof using h0.
    unfold hd_item, hd_get. destruct (check_rn rn) as [r|]; [|split; reflexivity].
    assert (Hg : match aget rn_eqb (d_hops (hd_map d)) r with Some m => (hd_map d, Ok m) | None => (hd_put (hd_map d) r (Dense (zeros (d_num (hd_map d)))), Ok (Dense (zeros (d_num (hd_map d))))) end
      = (let '(d', m) := match aget rn_eqb (d_hops d) r with Some m => (d, m) | None => (hd_put d r (Dense (zeros (d_num d))), Dense (zeros (d_num d))) end in (hd_map d', Ok (st_map m)))).
    { cbn [hd_map d_hops d_num]. rewrite aget_map. destruct (aget rn_eqb (d_hops d) r) as [m|]; cbn [option_map]; [reflexivity|]. rewrite <- put_map. cbn [st_map]. rewrite zeros_map. reflexivity. }
    rewrite Hg. replace (match aget rn_eqb (d_hops d) r with Some m => (d, Ok m) | None => (hd_put d r (Dense (zeros (d_num d))), Ok (Dense (zeros (d_num d)))) end)
      with (let '(d', m) := match aget rn_eqb (d_hops d) r with Some m => (d, m) | None => (hd_put d r (Dense (zeros (d_num d))), Dense (zeros (d_num d))) end in (d', Ok m)) by (destruct (aget rn_eqb (d_hops d) r); reflexivity).
    destruct (match aget rn_eqb (d_hops d) r with Some m => (d, m) | None => (hd_put d r (Dense (zeros (d_num d))), Dense (zeros (d_num d))) end) as [d' [m|l]]; [|split; reflexivity].
    cbn [st_map]. rewrite map_length. destruct (py_norm (length m) i) as [i'|]; [|split; reflexivity]. rewrite nth_error_map. destruct (nth_error m i') as [row|]; [|split; reflexivity]. cbn [option_map]. rewrite map_length.
    destruct (py_norm (length row) j) as [j'|]; [|split; reflexivity]. cbn [fst snd]. split; [|reflexivity]. rewrite !set_nth_map. apply (put_map d' r (Dense _)).
  Qed.

  Context (bigK : K -> bool) (big : E -> bool) (Hbig : forall x, bigK x = false -> big (h x) = false).
  Lemma set_map d rn m : fst (hd_set big (hd_map d) rn (map (map h) m)) = hd_map (fst (hd_set bigK d rn m)) /\ (snd (hd_set bigK d rn m) = Ok tt -> snd (hd_set big (hd_map d) rn (map (map h) m)) = Ok tt).
  Proof using Hbig.
    unfold hd_set. destruct (check_rn rn) as [r|]; [|split; [reflexivity|intros H; discriminate H]]. cbn [hd_map d_num]. rewrite shape_map. destruct (shape_is (d_num d) m); cbn [negb]; [|split; [reflexivity|intros H; discriminate H]]. cbn [fst snd].
    fold (hd_map d). split; [apply (put_map d r (Dense m))|]. destruct (rn_eqb r (0, 0, 0)) eqn:Q; [|reflexivity]. apply rn_eqb_spec in Q. subst r. unfold check_diag. cbn [hd_put d_hops].
    rewrite !aget_aset by apply rn_eqb_spec. rewrite rn_eqb_refl. rewrite diag_map. intros H. destruct (existsb bigK (diag m)) eqn:Qk; [discriminate H|].
    replace (existsb big (map h (diag m))) with false; [reflexivity|]. symmetry. clear H. induction (diag m) as [|x l IH]; [reflexivity|]. cbn in *. apply orb_false_elim in Qk. rewrite Hbig, IH by tauto. reflexivity.
  Qed.
  Lemma dstep_map d o : fst (dstep big (hd_map d) (dop_map o)) = hd_map (fst (dstep bigK d o)) /\ (snd (dstep bigK d o) = Ok tt -> snd (dstep big (hd_map d) (dop_map o)) = Ok tt).
  Proof using Hbig h0.
    destruct o as [rn m|rn i j e]; cbn [dstep dop_map]; [apply set_map|]. destruct (item_map d rn i j e) as (H1 & H2). split; [exact H1|]. rewrite H2. auto.
  Qed.
  Lemma dscript_map os : forall d d', dscript bigK d os = Ok d' -> dscript big (hd_map d) (map dop_map os) = Ok (hd_map d').
  Proof using Hbig h0.
    induction os as [|o os IH]; intros d d' H; cbn [dscript map] in *; [injection H as <-; reflexivity|].
    destruct (dstep_map d o) as (H1 & H2). destruct (dstep bigK d o) as [d1 [[]|x]]; [|discriminate H]. cbn [fst snd] in H1, H2. specialize (H2 eq_refl).
    destruct (dstep big (hd_map d) (dop_map o)) as [d2 a]. cbn [fst snd] in *. subst d2 a. apply IH, H.
  Qed.
  Lemma dval_map n d R i j : dval n (hd_map d) R i j = h (dval n d R i j).
  Proof using h0.
    unfold dval. destruct (inside n i j); [|symmetry; exact h0]. cbn [hd_map d_hops]. rewrite aget_map. destruct (aget rn_eqb (d_hops d) R) as [[m|l]|]; cbn [option_map st_map]; [apply at_map, h0|symmetry; exact h0|symmetry; exact h0].
  Qed.
End Map.

Section Inv.
  Context {E : Type} {SE : Scalar E} (big : E -> bool) (n : Z) (Hn : 0 <= n).
  Lemma dscript_inv os : forall d d', dinv n d -> dscript big d os = Ok d' -> dinv n d'.
  Proof using Hn.
    induction os as [|o os IH]; intros d d' Hd H; cbn [dscript] in H; [injection H as <-; exact Hd|].
    pose proof (proj1 (dstep_ok n Hn big d o Hd)) as H1. destruct (dstep big d o) as [d1 [u|x]]; [|discriminate H]. apply (IH d1 d' H1 H).
  Qed.
End Inv.

(** ** The amplitudes *)
Section Amp.
  Context {K : Type} {SK : Scalar K} (keqb : K -> K -> bool) (k00 : keqb s0 s0 = true) (kconj : K -> K) (kconj0 : kconj s0 = s0) (n : Z).
  Definition kamp (d : hd K) (R : cell) (i j : Z) : K :=
    if keqb (dval n d R i j) s0 then kconj (dval n d (minus R) j i) else dval n d R i j.
  Let idx := zrange (Z.to_nat n).
  Definition kconsistent (d : hd K) : bool :=
    forallb (fun q : rn3 * M_hopdict.stored K => forallb (fun i => forallb (fun j =>
      let a := dval n d (fst q) i j in let b := dval n d (minus (fst q)) j i in
      keqb a s0 || keqb b s0 || keqb b (kconj a)) idx) idx) (d_hops d).
  Definition kdiag (d : hd K) : bool := forallb (fun i => keqb (dval n d (0, 0, 0) i i) s0) idx.
  Definition kboxed (b : cell) (d : hd K) : bool := forallb (fun q : rn3 * M_hopdict.stored K => in_box b (fst q)) (d_hops d).
  Lemma dval_out (d : hd K) R i j : ~ In R (map fst (d_hops d)) -> dval n d R i j = s0.
  Proof using.
    intros H. unfold dval. destruct (inside n i j); [|reflexivity]. destruct (aget rn_eqb (d_hops d) R) as [m|] eqn:Q; [|reflexivity]. exfalso. apply H. clear -Q.
    induction (d_hops d) as [|[k v] l IH]; [discriminate Q|]. cbn in *. destruct (rn_eqb R k) eqn:Qk; [apply rn_eqb_spec in Qk; left; auto|right; auto].
  Qed.
  Lemma in_box_minus b R : in_box b (minus R) = in_box b R.
  Proof using. destruct b as [[b1 b2] b3], R as [[x y] z]. unfold in_box. cbn. rewrite !Z.abs_opp. reflexivity. Qed.
  Lemma kamp_out b d R i j : kboxed b d = true -> in_box b R = false -> kamp d R i j = s0.
  Proof using k00 kconj0.
    intros Hb HR. assert (Hout : forall R', in_box b R' = false -> forall i j, dval n d R' i j = s0).
    { intros R' HR' a c. apply dval_out. intros Hin. apply in_map_iff in Hin. destruct Hin as (q & <- & Hq). unfold kboxed in Hb. rewrite forallb_forall in Hb. rewrite (Hb q Hq) in HR'. discriminate. }
    unfold kamp. rewrite (Hout R HR i j), (Hout (minus R)) by (rewrite in_box_minus; exact HR). rewrite k00. exact kconj0.
  Qed.

  Context {E X L : Type} {SE : Scalar E} (h : K -> E) (h0 : h s0 = s0) (conj : E -> E) (conj_conj : forall e, conj (conj e) = e) (h_conj : forall x, h (kconj x) = conj (h x)) (keqb_h : forall a b, keqb a b = true -> h a = h b).
  Context (bigK : K -> bool) (is0 big : E -> bool) (is0_spec : forall e, is0 e = true <-> e = s0) (big0 : big s0 = false) (Hbig : forall x, bigK x = false -> big (h x) = false).
  Lemma kconsistent_ok d : kconsistent d = true -> forall R i j, keqb (dval n d R i j) s0 = true \/ h (dval n d (minus R) j i) = s0 \/ h (dval n d (minus R) j i) = conj (h (dval n d R i j)).
  Proof using keqb_h k00 h0 h_conj.
    intros Hc R i j. destruct (inside n i j) eqn:Qi; [|left; unfold dval; rewrite Qi; exact k00].
    destruct (in_dec (fun a b : rn3 => ltac:(decide equality; [apply Z.eq_dec|decide equality; apply Z.eq_dec])) R (map fst (d_hops d))) as [Hin|Hin]; [|left; rewrite (dval_out d R i j Hin); exact k00].
    apply in_map_iff in Hin. destruct Hin as (q & <- & Hq). apply inside_true in Qi. destruct Qi as (Hi & Hj). unfold kconsistent in Hc. rewrite forallb_forall in Hc. specialize (Hc q Hq). rewrite forallb_forall in Hc. assert (Ii : In i (zrange (Z.to_nat n))) by (apply In_zrange; clear -Hi; lia). assert (Ij : In j (zrange (Z.to_nat n))) by (apply In_zrange; clear -Hj; lia).
    specialize (Hc i Ii). rewrite forallb_forall in Hc. specialize (Hc j Ij). cbv zeta in Hc. apply orb_prop in Hc. destruct Hc as [Hc|Hc]; [apply orb_prop in Hc; destruct Hc as [Hc|Hc]|]; auto; apply keqb_h in Hc; rewrite ?h0, ?h_conj in Hc; auto.
  Qed.
  Theorem dict_apply (d : hd K) (s : pc E X E L) : 0 <= n ->
    dinv n (hd_map h d) -> kconsistent d = true -> kdiag d = true ->
    Inv s -> locked s = false -> num_orb s = n -> (forall R i j, a_hop (abs conj s) R i j = None) ->
    exists s' d', add_hopping_dict conj is0 big s (hd_map h d) = (s', d', Ok tt) /\
      Inv s' /\ locked s' = false /\ orbs s' = orbs s /\
      forall R i j, 0 <= i < n -> 0 <= j < n -> odef (a_hop (abs conj s') R i j) = h (kamp d R i j).
  Proof using keqb_h k00 kconj0 h0 conj_conj h_conj is0_spec big0.
    intros Hn Hi Hc Hg Hs Hl Hnum Hnone. pose proof (kconsistent_ok d Hc) as Hk.
    assert (Hc0 : conj s0 = s0) by (rewrite <- h0, <- h_conj, kconj0; reflexivity).
    destruct (apply_dict is0 is0_spec n conj conj_conj big big0 s (hd_map h d) Hi Hs Hl) as (s' & E1 & E2 & E3 & E4 & E5); [lia| |intros R i j H1 H2|].
    - intros i. rewrite (dval_map h h0). destruct (inside n i i) eqn:Q; [|unfold dval; rewrite Q; exact h0]. apply inside_true in Q. destruct Q as (Q & _). unfold kdiag in Hg. rewrite forallb_forall in Hg. rewrite (keqb_h _ _ (Hg i ltac:(apply In_zrange; lia))). exact h0.
    - rewrite !(dval_map h h0) in *. destruct (Hk R i j) as [H|[H|H]]; [apply keqb_h in H; rewrite H in H1; contradiction|contradiction|exact H].
    - exists s', (spared is0 (hd_map h d)). split; [exact E1|]. split; [exact E2|]. split; [exact E3|]. split; [exact E4|]. intros R i j Hi' Hj. destruct (E5 R i j) as (O1 & O2 & O3). rewrite !(dval_map h h0) in *. rewrite Hnone in O3. unfold kamp.
      assert (Hz : forall x, {h x = s0} + {h x <> s0}) by (intros x; destruct (is0 (h x)) eqn:Q; [left; apply is0_spec, Q|right; intros Q'; apply is0_spec in Q'; congruence]).
      destruct (keqb (dval n d R i j) s0) eqn:Qk.
      + apply keqb_h in Qk. rewrite Qk, h0 in O3. rewrite h_conj. destruct (Hz (dval n d (minus R) j i)) as [Q|Q].
        * rewrite O3 by (right; auto). rewrite Q, Hc0. reflexivity.
        * rewrite (O2 Hi' Hj Q). reflexivity.
      + destruct (Hz (dval n d R i j)) as [Q|Q]; [|rewrite (O1 Hi' Hj Q); reflexivity]. assert (HZ : h (dval n d (minus R) j i) = s0 \/ h (dval n d (minus R) j i) <> s0) by (destruct (Hz (dval n d (minus R) j i)); auto). destruct HZ as [H|H]; [rewrite O3 by auto; symmetry; exact Q|].
        exfalso. destruct (Hk R i j) as [H'|[H'|H']]; [congruence|contradiction|]. apply H. rewrite H', Q. exact Hc0.
  Qed.
  Theorem dict_amp (os : list (dop K)) (d : hd K) (s : pc E X E L) : 0 <= n ->
    dscript bigK (hd_new n) os = Ok d -> kconsistent d = true -> kdiag d = true ->
    Inv s -> locked s = false -> num_orb s = n -> (forall R i j, a_hop (abs conj s) R i j = None) ->
    dscript big (hd_new n) (map (dop_map h) os) = Ok (hd_map h d) /\
    exists s' d', add_hopping_dict conj is0 big s (hd_map h d) = (s', d', Ok tt) /\
      Inv s' /\ locked s' = false /\ orbs s' = orbs s /\
      forall R i j, 0 <= i < n -> 0 <= j < n -> odef (a_hop (abs conj s') R i j) = h (kamp d R i j).
  Proof using keqb_h k00 kconj0 h0 conj_conj h_conj is0_spec big0 Hbig.
    intros Hn Hd Hc Hg Hs Hl Hnum Hnone. pose proof (dscript_map h h0 bigK big Hbig os _ _ Hd) as Hd'. change (hd_map h (hd_new n)) with (@hd_new E n) in Hd'. split; [exact Hd'|].
    pose proof (dscript_inv big n Hn _ _ _ (new_inv n) Hd') as Hi. apply dict_apply; assumption.
  Qed.
End Amp.
(** ** Dictionaries of exact numbers *)
Section Inv.
  Context {K E : Type} {SK : Scalar K} {SE : Scalar E} (h : K -> E) (n : Z).
  Fixpoint kfresh (l : list rn3) : bool := match l with [] => true | r :: l' => negb (existsb (rn_eqb r) l') && kfresh l' end.
  Lemma kfresh_NoDup l : kfresh l = true -> NoDup l.
  Proof using.
    induction l as [|r l IH]; intros H; [constructor|]. cbn [kfresh] in H. apply andb_prop in H. destruct H as (H1 & H2). constructor; [|apply IH, H2].
    intros Hin. apply Bool.negb_true_iff in H1. assert (Q : existsb (rn_eqb r) l = true) by (apply existsb_exists; exists r; split; [exact Hin|apply rn_eqb_refl]). congruence.
  Qed.
  Definition kinv (d : hd K) : bool :=
    (d_num d =? n) && kfresh (map fst (d_hops d)) && forallb (fun q : rn3 * M_hopdict.stored K => match snd q with Dense m => shape_is n m | Coo _ => false end) (d_hops d).
  Lemma kinv_ok d : kinv d = true -> dinv n (hd_map h d).
  Proof using.
    intros H. unfold kinv in H. apply andb_prop in H. destruct H as (H & H3). apply andb_prop in H. destruct H as (H1 & H2). split; [|split].
    - apply Z.eqb_eq, H1.
    - cbn [hd_map d_hops]. rewrite map_map. apply (kfresh_NoDup _ H2).
    - intros R m Hm. cbn [hd_map d_hops] in Hm. rewrite aget_map in Hm. destruct (aget rn_eqb (d_hops d) R) as [m'|] eqn:Q; [|discriminate Hm]. injection Hm as <-.
      assert (Hin : exists k, In (k, m') (d_hops d)).
      { clear -Q. induction (d_hops d) as [|[k v] l IH]; [discriminate Q|]. cbn in Q. destruct (rn_eqb R k); [injection Q as ->; exists k; left; reflexivity|]. destruct (IH Q) as (k' & Hk). exists k'. right. exact Hk. }
      destruct Hin as (k & Hin). rewrite forallb_forall in H3. specialize (H3 _ Hin). cbn [snd] in H3. destruct m' as [l|l]; [|discriminate H3]. exists (map (map h) l). split; [reflexivity|]. apply shape_spec. rewrite shape_map. exact H3.
  Qed.
  Lemma mset_map m i j e : mset (map (map h) m) i j (h e) = map (map h) (mset m i j e).
  Proof using. unfold mset. rewrite nth_error_map. destruct (nth_error m i) as [row|]; [|reflexivity]. cbn [option_map]. rewrite !set_nth_map. reflexivity. Qed.
End Inv.
