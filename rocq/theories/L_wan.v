(** Lemmas about the Wannier90 conversion. *)
From Verif Require Import Prelude Vec Cx M_hop M_pc M_wan S_pc S_wan L_base L_hop L_pc.
From Coq Require Import Permutation.

Lemma key5_spec a b : key5_eqb a b = true <-> a = b.
Proof.
  destruct a as [[[a1 a2] a3] [a4 a5]], b as [[[b1 b2] b3] [b4 b5]]. cbn. rewrite !andb_true_iff, !Z.eqb_eq. split; [intros ((((-> & ->) & ->) & ->) & ->); reflexivity|intros [= -> -> -> -> ->]; repeat split].
Qed.
Lemma rn5_key5 a b : rn5_eqb a b = key5_eqb a b.
Proof. destruct a as [[[a1 a2] a3] [a4 a5]], b as [[[b1 b2] b3] [b4 b5]]. unfold rn5_eqb, rn_eqb, M_hop.pair_eqb. cbn. rewrite !andb_assoc. reflexivity. Qed.
Lemma key5_refl a : key5_eqb a a = true.
Proof. apply key5_spec. reflexivity. Qed.
Lemma moved_inj s T T' : moved s T = moved s T' -> T = T'.
Proof. destruct s as [[[a b] c] p], T as [[x y] z], T' as [[x' y'] z']. cbn. intros H. injection H as H1 H2 H3. f_equal; [f_equal|]; lia. Qed.
Lemma moved_pair s T : snd (moved s T) = snd s.
Proof. destruct s as [[[a b] c] p], T as [[x y] z]. reflexivity. Qed.
Lemma moved_0 s : moved s (0, 0, 0) = s.
Proof. destruct s as [[[a b] c] p]. cbn. rewrite !Z.add_0_r. reflexivity. Qed.
Lemma reverse_moved s T : reverse5 (moved s T) = moved (reverse5 s) (opp3 T).
Proof. destruct s as [[[a b] c] [i j]], T as [[x y] z]. cbn. f_equal. f_equal; [f_equal|]; lia. Qed.
Lemma reverse_reverse s : reverse5 (reverse5 s) = s.
Proof. destruct s as [[[a b] c] [i j]]. cbn. rewrite !Z.opp_involutive. reflexivity. Qed.
Lemma opp3_opp3 T : opp3 (opp3 T) = T.
Proof. destruct T as [[x y] z]. cbn. rewrite !Z.opp_involutive. reflexivity. Qed.

Section Wan.
  Context {E : Type} {SE : Scalar E} (over : E -> nat -> E).

  (** ** The two lists as one association list *)
  Notation get d k := (aget key5_eqb d k).
  Lemma index_get (ind : list rn5) : forall (eng : list E) k, length ind = length eng ->
    match index_of ind k with
    | Some n => nth_error eng n = get (combine ind eng) k /\ exists v, nth_error eng n = Some v
    | None => get (combine ind eng) k = None
    end.
  Proof.
    induction ind as [|x ind IH]; intros [|e eng] k H; cbn [length] in H; try discriminate; cbn [index_of combine aget]; [reflexivity|].
    rewrite rn5_key5. destruct (key5_eqb k x); [split; [reflexivity|exists e; reflexivity]|]. specialize (IH eng k ltac:(lia)). destruct (index_of ind k) as [n|]; exact IH.
  Qed.
  Lemma index_set (ind : list rn5) : forall (eng : list E) k v, length ind = length eng ->
    match index_of ind k with
    | Some n => combine ind (set_nth n eng v) = aset key5_eqb (combine ind eng) k v
    | None => combine (ind ++ [k]) (eng ++ [v]) = aset key5_eqb (combine ind eng) k v
    end.
  Proof.
    induction ind as [|x ind IH]; intros [|e eng] k v H; cbn [length] in H; try discriminate; cbn [index_of combine aset]; [reflexivity|].
    rewrite rn5_key5. destruct (key5_eqb k x) eqn:Ex; [reflexivity|]. specialize (IH eng k v ltac:(lia)). destruct (index_of ind k) as [n|]; cbn [set_nth combine app]; rewrite <- IH; reflexivity.
  Qed.
  Definition one_list (st : list rn5 * list E) : list (key5 * E) := combine (fst st) (snd st).
  Lemma apply_vec_ok s e n st T : length (fst st) = length (snd st) ->
    let st' := apply_vec over s e n st T in
    length (fst st') = length (snd st') /\ one_list st' = aset key5_eqb (one_list st) (moved s T) (over e n).
  Proof.
    intros H. destruct s as [[[a b] c] p], T as [[x y] z]. unfold apply_vec, one_list. cbn [moved]. cbv zeta.
    pose proof (index_set (fst st) (snd st) (a + x, b + y, c + z, p) (over e n) H) as I. destruct (index_of (fst st) (a + x, b + y, c + z, p)) as [k|]; cbn [fst snd].
    - split; [rewrite length_set_nth; exact H|exact I].
    - split; [rewrite !app_length; cbn; lia|exact I].
  Qed.
  Lemma apply_vecs_ok s e n vs : forall st, length (fst st) = length (snd st) ->
    let st' := fold_left (apply_vec over s e n) vs st in
    length (fst st') = length (snd st') /\ one_list st' = fold_left (fun d T => aset key5_eqb d (moved s T) (over e n)) vs (one_list st).
  Proof.
    induction vs as [|T vs IH]; intros st H; cbn [fold_left]; [split; [exact H|reflexivity]|].
    destruct (apply_vec_ok s e n st T H) as (H1 & H2). destruct (IH _ H1) as (H3 & H4). split; [exact H3|]. rewrite H4, H2. reflexivity.
  Qed.
  Lemma fold_get s v vs : forall d t,
    get (fold_left (fun d T => aset key5_eqb d (moved s T) v) vs d) t = if existsb (fun T => key5_eqb (moved s T) t) vs then Some v else @aget _ E key5_eqb d t.
  Proof.
    induction vs as [|T vs IH]; intros d t; cbn [fold_left existsb]; [reflexivity|]. rewrite IH, (aget_aset key5_eqb key5_spec).
    rewrite (eqb_sym key5_eqb key5_spec t). destruct (key5_eqb (moved s T) t), (existsb (fun T0 => key5_eqb (moved s T0) t) vs); reflexivity.
  Qed.
  (** One key of the table. *)
  Lemma apply_key_ok st kv e : length (fst st) = length (snd st) -> get (one_list st) (fst kv) = Some e ->
    exists st', apply_key over st kv = Ok st' /\ length (fst st') = length (snd st') /\ (NoDup (map fst (one_list st)) -> NoDup (map fst (one_list st'))) /\
      (forall t, get (one_list st') t = if existsb (fun T => key5_eqb (moved (fst kv) T) t) (snd kv) then Some (over e (length (snd kv))) else if key5_eqb (fst kv) t then Some s0 else get (one_list st) t).
  Proof.
    destruct kv as [s l]. cbn [fst snd]. intros H Hg. unfold apply_key. cbn [fst snd]. pose proof (index_get (fst st) (snd st) s H) as I. pose proof (index_set (fst st) (snd st) s s0 H) as J. fold (one_list st) in I. rewrite Hg in I.
    destruct (index_of (fst st) s) as [n|]; [|discriminate]. destruct I as (I & _). rewrite I. fold (one_list st) in J.
    eexists. split; [reflexivity|]. destruct (apply_vecs_ok s e (length l) l (fst st, set_nth n (snd st) s0)) as (A & B). { cbn [fst snd]. rewrite length_set_nth. exact H. }
    split; [exact A|]. change (one_list (fst st, set_nth n (snd st) s0)) with (combine (fst st) (set_nth n (snd st) s0)) in B. rewrite J in B. split.
    - intros Hn. rewrite B. assert (G : forall vs d, NoDup (map fst d) -> NoDup (map fst (fold_left (fun (d0 : list (key5 * E)) T => aset key5_eqb d0 (moved s T) (over e (length l))) vs d))).
      { induction vs as [|T vs IH]; intros d Hd; [exact Hd|]. cbn [fold_left]. apply IH. apply (NoDup_aset key5_eqb key5_spec), Hd. }
      apply G. apply (NoDup_aset key5_eqb key5_spec), Hn.
    - intros t. rewrite B, fold_get. rewrite (aget_aset key5_eqb key5_spec), (eqb_sym key5_eqb key5_spec t). reflexivity.
  Qed.
End Wan.

(** ** The sums *)
Section Sums.
  Context {E : Type} {SE : Scalar E} (EL : ScalarLaws E) (over : E -> nat -> E) (Hover : forall e, over e 1%nat = e).
  Add Ring Er : (s_ring E EL).
  Notation get d k := (aget key5_eqb d k).
  Definition share (s : key5) (e : E) (l : list (Z * Z * Z)) (t : key5) : E := esum (map (fun T => if key5_eqb (moved s T) t then over e (length l) else s0) l).
  Lemma share_one s e t : share s e [(0, 0, 0)] t = if key5_eqb s t then e else s0.
  Proof. unfold share. cbn [map length]. rewrite esum_cons, esum_nil, moved_0, Hover. destruct (key5_eqb s t); ring. Qed.
  Lemma share_none s e l t : existsb (fun T => key5_eqb (moved s T) t) l = false -> share s e l t = s0.
  Proof.
    intros H. unfold share. apply (esum_zero EL). intros x Hx. apply in_map_iff in Hx. destruct Hx as (T & <- & HT).
    destruct (key5_eqb (moved s T) t) eqn:Q; [|reflexivity]. assert (existsb (fun T => key5_eqb (moved s T) t) l = true) by (apply existsb_exists; exists T; split; assumption). congruence.
  Qed.
  Lemma share_some s e l t : NoDup l -> existsb (fun T => key5_eqb (moved s T) t) l = true -> share s e l t = over e (length l).
  Proof.
    intros Hn H. apply existsb_exists in H. destruct H as (T & HT & Ht). apply key5_spec in Ht. subst t. unfold share.
    assert (Hd : forall a b : Z * Z * Z, rn_eqb a b = true <-> a = b) by apply rn_eqb_spec.
    etransitivity; [|exact (esum_single EL rn_eqb Hd (fun _ => over e (length l)) l T Hn HT)]. apply f_equal, map_ext. intros T'. destruct (key5_eqb (moved s T') (moved s T)) eqn:Q.
    - apply key5_spec, moved_inj in Q. subst T'. rewrite rn_eqb_refl. reflexivity.
    - destruct (rn_eqb T' T) eqn:Q'; [|reflexivity]. apply rn_eqb_spec in Q'. subst T'. rewrite key5_refl in Q. discriminate.
  Qed.
  Lemma amount_share rows sh t : amount over rows sh t = esum (map (fun r => share (fst r) (snd r) (sh (fst r)) t) rows).
  Proof. reflexivity. Qed.
  (** Changing the shifts of one matrix element. *)
  Lemma amount_change rows s e sh sh' t : NoDup (map fst rows) -> In (s, e) rows -> (forall s', s' <> s -> sh' s' = sh s') ->
    exists rest, amount over rows sh t = sadd rest (share s e (sh s) t) /\ amount over rows sh' t = sadd rest (share s e (sh' s) t)
      /\ ((forall s' T, In s' (map fst rows) -> s' <> s -> In T (sh s') -> moved s' T <> t) -> rest = s0).
  Proof.
    intros Hn Hin Hsh. apply in_split in Hin. destruct Hin as (A & B & ->). rewrite map_app in Hn. cbn [map fst] in Hn.
    assert (Hne : forall r, In r (A ++ B) -> fst r <> s). { intros r Hr Heq. apply NoDup_remove_2 in Hn. apply Hn. rewrite <- map_app, <- Heq. apply in_map, Hr. }
    exists (esum (map (fun r => share (fst r) (snd r) (sh (fst r)) t) (A ++ B))).
    assert (X : forall f : key5 -> list (Z * Z * Z), amount over (A ++ (s, e) :: B) f t = sadd (esum (map (fun r => share (fst r) (snd r) (f (fst r)) t) (A ++ B))) (share s e (f s) t)).
    { intros f. rewrite amount_share, !map_app, !(esum_app EL). cbn [map fst snd]. rewrite esum_cons. ring. }
    split; [apply X|]. split.
    - rewrite X. f_equal. apply f_equal, map_ext_in. intros r Hr. rewrite Hsh by (apply Hne, Hr). reflexivity.
    - intros Hh. apply (esum_zero EL). intros x Hx. apply in_map_iff in Hx. destruct Hx as (r & <- & Hr). apply share_none.
      destruct (existsb (fun T => key5_eqb (moved (fst r) T) t) (sh (fst r))) eqn:Q; [|reflexivity]. apply existsb_exists in Q. destruct Q as (T & HT & Q). apply key5_spec in Q. exfalso.
      apply (Hh (fst r) T); [|apply Hne, Hr|exact HT|exact Q]. rewrite map_app. cbn [map fst]. apply in_app_iff in Hr. apply in_app_iff. destruct Hr as [Hr|Hr]; [left|right; right]; apply in_map, Hr.
  Qed.
  Lemma amount_default rows sh t : (forall s, In s (map fst rows) -> sh s = [(0, 0, 0)]) -> NoDup (map fst rows) ->
    amount over rows sh t = match @aget _ E key5_eqb rows t with Some e => e | None => s0 end.
  Proof.
    intros Hsh Hn. rewrite amount_share. induction rows as [|[s e] rows IH]; [reflexivity|]. cbn [map fst snd aget] in *. rewrite esum_cons, Hsh by (left; reflexivity). rewrite share_one.
    inversion Hn as [|x l Hx Hl]; subst. rewrite IH by (try assumption; intros s' Hs'; apply Hsh; right; exact Hs'). rewrite (eqb_sym key5_eqb key5_spec t). destruct (key5_eqb s t) eqn:Q; [|ring].
    apply key5_spec in Q. subst t. replace (aget key5_eqb rows s) with (@None E) by (symmetry; apply (aget_None key5_eqb key5_spec); exact Hx). ring.
  Qed.

  (** ** apply_wsvec *)
  Definition partial_shifts (done : list key5) (ws : list (key5 * list (Z * Z * Z))) (s : key5) : list (Z * Z * Z) :=
    if existsb (key5_eqb s) done then shifts ws s else [(0, 0, 0)].
  Lemma in_done s done : existsb (key5_eqb s) done = true <-> In s done.
  Proof. rewrite existsb_exists. split; [intros (x & Hx & Q); apply key5_spec in Q; subst; exact Hx|intros H; exists s; split; [exact H|apply key5_refl]]. Qed.
  Section Apply.
    Context (rws : list (key5 * E)) (ws : list (key5 * list (Z * Z * Z))).
    Context (Hn : NoDup (map fst rws)) (Hws : NoDup (map fst ws)) (Hin : forall s, In s (map fst ws) -> In s (map fst rws)).
    Context (Hnv : forall s l, In (s, l) ws -> NoDup l) (Hap : apart rws ws).
    Definition inv (done : list key5) (st : list rn5 * list E) : Prop :=
      length (fst st) = length (snd st) /\ NoDup (map fst (one_list st))
      /\ (forall t, match get (one_list st) t with Some v => v | None => s0 end = amount over rws (partial_shifts done ws) t)
      /\ (forall s e, In (s, e) rws -> ~ In s done -> get (one_list st) s = Some e)
      /\ (forall t, In t (map fst (one_list st)) -> exists s, In s (map fst rws) /\ snd s = snd t).
    Lemma shifts_in s l : In (s, l) ws -> shifts ws s = l.
    Proof using Hws. intros H. unfold shifts. rewrite (proj2 (aget_In key5_eqb key5_spec ws s l Hws) H). reflexivity. Qed.
    Lemma shifts_out s : ~ In s (map fst ws) -> shifts ws s = [(0, 0, 0)].
    Proof using Type. clear. intros H. unfold shifts. replace (aget key5_eqb ws s) with (@None (list (Z * Z * Z))) by (symmetry; apply (aget_None key5_eqb key5_spec); exact H). reflexivity. Qed.
    Lemma inv_step a s l b st : ws = a ++ (s, l) :: b -> inv (map fst a) st -> exists st', apply_key over st (s, l) = Ok st' /\ inv (map fst (a ++ [(s, l)])) st'.
    Proof using EL Hover Hn Hws Hin Hnv Hap.
      intros Hsplit (H1 & H2 & H3 & H4 & H5). assert (Hsw : In (s, l) ws) by (rewrite Hsplit; apply in_app_iff; right; left; reflexivity).
      assert (Hs : In s (map fst rws)) by (apply Hin; apply (in_map fst) in Hsw; exact Hsw). apply in_map_iff in Hs. destruct Hs as ((s' & e) & Es & Hse). cbn [fst] in Es. subst s'.
      assert (Hsa : ~ In s (map fst a)). { rewrite Hsplit, map_app in Hws. cbn [map fst] in Hws. apply NoDup_remove_2 in Hws. intros X. apply Hws. apply in_app_iff. left. exact X. }
      assert (Hsh : shifts ws s = l) by (apply shifts_in, Hsw).
      assert (Hk : map fst ws = map fst a ++ s :: map fst b) by (rewrite Hsplit, map_app; reflexivity).
      destruct Hap as (Ap1 & Ap2).
      destruct (apply_key_ok over st (s, l) e H1 (H4 s e Hse Hsa)) as (st' & Ek & K1 & K2 & K3). cbn [fst snd] in K3. exists st'. split; [exact Ek|].
      split; [exact K1|]. split; [apply K2, H2|]. split; [|split].
      - intros t. rewrite K3.
        assert (Hp : forall s', s' <> s -> partial_shifts (map fst (a ++ [(s, l)])) ws s' = partial_shifts (map fst a) ws s').
        { intros s' Hne. unfold partial_shifts. rewrite map_app, existsb_app. cbn [map fst existsb]. destruct (key5_eqb s' s) eqn:Q; [apply key5_spec in Q; congruence|]. rewrite !orb_false_r. reflexivity. }
        destruct (amount_change rws s e (partial_shifts (map fst a) ws) (partial_shifts (map fst (a ++ [(s, l)])) ws) t Hn Hse Hp) as (rest & R1 & R2 & R3).
        assert (P1 : partial_shifts (map fst a) ws s = [(0, 0, 0)]). { unfold partial_shifts. destruct (existsb (key5_eqb s) (map fst a)) eqn:Q; [apply in_done in Q; contradiction|reflexivity]. }
        assert (P2 : partial_shifts (map fst (a ++ [(s, l)])) ws s = l). { unfold partial_shifts. rewrite (proj2 (in_done _ _)); [exact Hsh|]. rewrite map_app. apply in_app_iff. right. left. reflexivity. }
        rewrite P1, share_one in R1. rewrite P2 in R2. rewrite R2. specialize (H3 t). rewrite R1 in H3.
        (* contributions of the others to t *)
        assert (Rz : (t = s \/ existsb (fun T => key5_eqb (moved s T) t) l = true) -> rest = s0).
        { intros Ht. apply R3. intros s' T Hs' Hne HT Heq. destruct Ht as [->|Ht].
          - unfold partial_shifts in HT. destruct (existsb (key5_eqb s') (map fst a)) eqn:Q.
            + apply in_done in Q. apply in_map_iff in Q. destruct Q as ((q & l') & E1 & Q). cbn [fst] in E1. subst q. apply in_split in Q. destruct Q as (a1 & a2 & ->).
              destruct (Ap2 (map fst a1) s' (map fst (a2 ++ (s, l) :: b)) T) as [M|M]; [rewrite Hsplit, <- app_assoc; cbn [app]; rewrite map_app; reflexivity|exact HT|rewrite Heq; apply (in_map fst) in Hse; exact Hse|congruence|].
              apply Hsa. rewrite map_app. apply in_app_iff. left. rewrite <- Heq. exact M.
            + cbn [In] in HT. destruct HT as [<-|[]]. rewrite moved_0 in Heq. congruence.
          - apply existsb_exists in Ht. destruct Ht as (T0 & HT0 & Ht). apply key5_spec in Ht. unfold partial_shifts in HT. destruct (existsb (key5_eqb s') (map fst a)) eqn:Q.
            + apply Hne. apply (Ap1 s' s T T0); [exact Hs'|apply (in_map fst) in Hse; exact Hse|exact HT|rewrite Hsh; exact HT0|congruence].
            + cbn [In] in HT. destruct HT as [<-|[]]. rewrite moved_0 in Heq. subst s'.
              assert (Dd : In t (map fst ws) \/ ~ In t (map fst ws)) by (destruct (existsb (key5_eqb t) (map fst ws)) eqn:D; [left; apply in_done, D|right; intros X; apply in_done in X; congruence]). destruct Dd as [D|D].
              * destruct (Ap2 (map fst a) s (map fst b) T0 Hk) as [M|M]; [rewrite Hsh; exact HT0|rewrite Ht; exact Hs'|congruence|]. rewrite Ht in M. apply in_done in M. congruence.
              * apply Hne. apply (Ap1 t s (0, 0, 0) T0); [exact Hs'|apply (in_map fst) in Hse; exact Hse|rewrite (shifts_out t D); left; reflexivity|rewrite Hsh; exact HT0|rewrite moved_0; congruence]. }
        destruct (existsb (fun T => key5_eqb (moved s T) t) l) eqn:Qx.
        + rewrite Rz by (right; reflexivity). rewrite (share_some s e l t); [symmetry; exact (Radd_0_l (s_ring E EL) _)| |exact Qx]. apply (Hnv s l Hsw).
        + rewrite (share_none s e l t Qx). destruct (key5_eqb s t) eqn:Qs.
          * apply key5_spec in Qs. rewrite Rz by (left; congruence). cbv iota. ring.
          * rewrite H3. ring.
      - intros s' e' Hs' Hnd. rewrite K3. rewrite map_app in Hnd. assert (Hne : s' <> s) by (intros ->; apply Hnd, in_app_iff; right; left; reflexivity).
        destruct (existsb (fun T => key5_eqb (moved s T) s') l) eqn:Qx.
        + exfalso. apply existsb_exists in Qx. destruct Qx as (T & HT & Q). apply key5_spec in Q. destruct (Ap2 (map fst a) s (map fst b) T Hk) as [M|M]; [rewrite Hsh; exact HT|rewrite Q; apply (in_map fst) in Hs'; exact Hs'|congruence|].
          apply Hnd, in_app_iff. left. rewrite <- Q. exact M.
        + destruct (key5_eqb s s') eqn:Qs; [apply key5_spec in Qs; congruence|]. apply H4; [exact Hs'|]. intros X. apply Hnd, in_app_iff. left. exact X.
      - intros t Ht. destruct (get (one_list st') t) as [v|] eqn:G; [|exfalso; apply (aget_None key5_eqb key5_spec) in G; contradiction]. rewrite K3 in G.
        destruct (existsb (fun T => key5_eqb (moved s T) t) l) eqn:Qx.
        + apply existsb_exists in Qx. destruct Qx as (T & HT & Q). apply key5_spec in Q. exists s. split; [apply (in_map fst) in Hse; exact Hse|]. rewrite <- Q. symmetry. apply moved_pair.
        + destruct (key5_eqb s t) eqn:Qs; [apply key5_spec in Qs; subst t; exists s; split; [apply (in_map fst) in Hse; exact Hse|reflexivity]|]. apply H5. apply (aget_In_weak key5_eqb key5_spec) in G. apply (in_map fst) in G. exact G.
    Qed.
    Lemma inv_start st : length (fst st) = length (snd st) -> one_list st = rws -> inv [] st.
    Proof using EL Hover Hn.
      intros H1 H2. split; [exact H1|]. rewrite H2. split; [exact Hn|]. split; [|split].
      - intros t. rewrite amount_default; [reflexivity|intros s _; reflexivity|exact Hn].
      - intros s e H _. apply (aget_In key5_eqb key5_spec); assumption.
      - intros t Ht. exists t. split; [exact Ht|reflexivity].
    Qed.
    Lemma apply_all b : forall a st, ws = a ++ b -> inv (map fst a) st -> exists st', apply_wsvec over b st = Ok st' /\ inv (map fst ws) st'.
    Proof using EL Hover Hn Hws Hin Hnv Hap.
      induction b as [|[s l] b IH]; intros a st Hsplit Hi; cbn [apply_wsvec]; [exists st; rewrite Hsplit, app_nil_r; split; [reflexivity|exact Hi]|].
      destruct (inv_step a s l b st Hsplit Hi) as (st1 & E1 & I1). rewrite E1. cbn [bind]. apply (IH (a ++ [(s, l)])); [rewrite <- app_assoc; exact Hsplit|exact I1].
    Qed.
    Lemma apply_wsvec_ok st : length (fst st) = length (snd st) -> one_list st = rws ->
      exists st', apply_wsvec over ws st = Ok st' /\ length (fst st') = length (snd st') /\ NoDup (map fst (one_list st'))
        /\ (forall t, match get (one_list st') t with Some v => v | None => s0 end = amount over rws (shifts ws) t)
        /\ (forall t, In t (map fst (one_list st')) -> exists s, In s (map fst rws) /\ snd s = snd t).
    Proof using EL Hover Hn Hws Hin Hnv Hap.
      intros H1 H2. destruct (apply_all ws [] st eq_refl (inv_start st H1 H2)) as (st' & E1 & (I1 & I2 & I3 & _ & I5)). exists st'. split; [exact E1|]. split; [exact I1|]. split; [exact I2|]. split; [|exact I5].
      intros t. rewrite I3. unfold amount. apply f_equal, map_ext. intros r. assert (P : partial_shifts (map fst ws) ws (fst r) = shifts ws (fst r)).
      { unfold partial_shifts. destruct (existsb (key5_eqb (fst r)) (map fst ws)) eqn:Q; [reflexivity|]. rewrite shifts_out; [reflexivity|]. intros X. apply in_done in X. congruence. }
      rewrite P. reflexivity.
    Qed.
  End Apply.
End Sums.
