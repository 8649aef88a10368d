(** Lemmas for the pictures of models. *)
From Coq Require Import String Permutation.
From Verif Require Import Prelude Vec Cx M_hop M_pc M_sync M_bloch M_super M_view S_pc S_super S_bloch S_view L_base L_hop L_super L_bloch L_bloch2 L_lat2.
Local Open Scope Z_scope.

Lemma view_cases view w : view_dims view = Ok w ->
  (view = "ab" /\ w = (0, 1, 2) \/ view = "ba" /\ w = (1, 0, 2) \/ view = "bc" /\ w = (1, 2, 0) \/
   view = "cb" /\ w = (2, 1, 0) \/ view = "ca" /\ w = (2, 0, 1) \/ view = "ac" /\ w = (0, 2, 1))%string.
Proof.
  unfold view_dims. destruct (existsb _ _) eqn:E; [|discriminate]. apply existsb_exists in E. destruct E as (x & Hx & E).
  apply String.eqb_eq in E. subst x. cbn [In] in Hx.
  destruct Hx as [<-|[<-|[<-|[<-|[<-|[<-|[]]]]]]]; cbn; intros H; assert (Hw : forall u, Ok u = Ok w -> u = w) by (intros; congruence);
    apply Hw in H; subst w; intuition.
Qed.

Section View.
  Context {T : Type} {ST : Scalar T} (TL : ScalarLaws T).
  Add Ring Tr8 : (s_ring T TL).

  Lemma eye_proj view w (v : vec T) : view_dims view = Ok w -> eye view v = Some (proj w v).
  Proof.
    intros H. apply view_cases in H. destruct v as [[x y] z].
    destruct H as [[-> ->]|[[-> ->]|[[-> ->]|[[-> ->]|[[-> ->]|[-> ->]]]]]]; reflexivity.
  Qed.
  Lemma eye_illegal view (v : vec T) : eye view v = None -> view_dims view = Err ValueError.
  Proof.
    unfold eye, view_dims. destruct v as [[x y] z]. intros H. replace (existsb _ _) with false; [reflexivity|]. symmetry. cbn [existsb].
    repeat (destruct (string_dec _ _) as [|?n]; [discriminate|]).
    repeat (rewrite (proj2 (String.eqb_neq _ _)) by assumption). reflexivity.
  Qed.
  Lemma view_total view (look : vec T -> T * T) : (forall v, eye view v = Some (look v)) ->
    exists w, view_dims view = Ok w /\ forall v, proj w v = look v.
  Proof.
    intros H. destruct (view_dims view) as [w|x] eqn:E.
    - exists w. split; [reflexivity|]. intros v. specialize (H v). rewrite (eye_proj view w v E) in H. congruence.
    - exfalso. specialize (H (s0, s0, s0)). revert H E. unfold eye, view_dims.
      repeat (destruct (string_dec view _) as [->|?n]; [cbn; discriminate|]). discriminate.
  Qed.

  (** ** Vector algebra *)
  Lemma site_0 lat org (t : vec T) : site lat org t (0, 0, 0) = vadd (vmat t lat) org.
  Proof.
    destruct t as [[x y] z], lat as [[[[a1 a2] a3] [[b1 b2] b3]] [[c1 c2] c3]], org as [[o1 o2] o3]. unfold site. cbn [vadd vZ vmat]. rewrite !(sZ_0 T TL). repeat (f_equal; try ring).
  Qed.
  Lemma site_to lat org (ti tj : vec T) R :
    vadd (vadd (vmat ti lat) org) (vmat (vsub (vadd tj (vZ R)) ti) lat) = site lat org tj R.
  Proof.
    destruct ti as [[x y] z], tj as [[x' y'] z'], R as [[r1 r2] r3], lat as [[[[a1 a2] a3] [[b1 b2] b3]] [[c1 c2] c3]], org as [[o1 o2] o3].
    unfold site. cbn [vadd vsub vZ vmat]. repeat (f_equal; try ring).
  Qed.
  Lemma site_back lat org (ti tj : vec T) R :
    vsub (vadd (vmat tj lat) org) (vmat (vsub (vadd tj (vZ R)) ti) lat) = site lat org ti (opp3 R).
  Proof.
    destruct ti as [[x y] z], tj as [[x' y'] z'], R as [[r1 r2] r3], lat as [[[[a1 a2] a3] [[b1 b2] b3]] [[c1 c2] c3]], org as [[o1 o2] o3].
    unfold site. cbn [vadd vsub vZ vmat opp3]. rewrite !(sZ_opp T TL). repeat (f_equal; try ring).
  Qed.
  Lemma site_shift lat org (t : vec T) R : vadd (vadd (vmat t lat) org) (vmat (vZ R) lat) = site lat org t R.
  Proof.
    destruct t as [[x y] z], R as [[r1 r2] r3], lat as [[[[a1 a2] a3] [[b1 b2] b3]] [[c1 c2] c3]], org as [[o1 o2] o3].
    unfold site. cbn [vadd vsub vZ vmat]. repeat (f_equal; try ring).
  Qed.
  Lemma padd_psub (p q : T * T) : (sadd (fst p) (fst (psub q p)), sadd (snd p) (snd (psub q p))) = q.
  Proof. destruct p, q. unfold psub. cbn [fst snd]. f_equal; ring. Qed.

  (** ** Reading pictures *)
  Lemma arrows_app (a b : list (cmd T)) : arrows (a ++ b) = arrows a ++ arrows b.
  Proof. apply flat_map_app. Qed.
  Lemma dots_app (a b : list (cmd T)) : dots (a ++ b) = dots a ++ dots b.
  Proof. apply flat_map_app. Qed.
  Lemma lines_app (a b : list (cmd T)) : lines (a ++ b) = lines a ++ lines b.
  Proof. apply flat_map_app. Qed.
  Lemma borders_app (a b : list (cmd T)) : borders (a ++ b) = borders a ++ borders b.
  Proof. apply flat_map_app. Qed.
  Lemma arrows_arrow w (l : list (vec T * vec T)) :
    arrows (map (fun q => arrow w (fst q) (snd q)) l) = map (fun q => (proj w (fst q), proj w (snd q))) l.
  Proof.
    induction l as [|[a b] l IH]; [reflexivity|]. cbn [map]. unfold arrow at 1. unfold arrows. cbn [flat_map app fst snd].
    fold (arrows (map (fun q => arrow w (fst q) (snd q)) l)). rewrite IH. rewrite (padd_psub (proj w a) (proj w b)). reflexivity.
  Qed.
  Lemma arrow_only w (l : list (vec T * vec T)) : let cs := map (fun q => arrow w (fst q) (snd q)) l in dots cs = [] /\ lines cs = [] /\ borders cs = [].
  Proof. cbn zeta. induction l as [|[a b] l IH]; [repeat split|]. exact IH. Qed.
  Lemma scatter_only {A} (f : A -> list (T * T)) l : let cs := map (fun R => Scatter (f R)) l in
    dots cs = flat_map f l /\ arrows cs = [] /\ lines cs = [] /\ borders cs = [].
  Proof. cbn zeta. induction l as [|a l (H1 & H2)]; [repeat split|]. split; [|exact H2]. cbn [map flat_map]. unfold dots. cbn [flat_map]. fold (dots (map (fun R => Scatter (f R)) l)). rewrite H1. reflexivity. Qed.

  (** ** Ranges *)
  Lemma In_pyrange a b x : In x (pyrange a b) <-> a <= x < b.
  Proof.
    unfold pyrange. rewrite in_map_iff. split.
    - intros (y & <- & H). apply In_zrange in H. lia.
    - intros H. exists (x - a). split; [lia|]. apply In_zrange. lia.
  Qed.
  Lemma NoDup_pyrange a b : NoDup (pyrange a b).
  Proof.
    unfold pyrange. apply FinFun.Injective_map_NoDup; [intros x y; lia|]. unfold zrange. apply FinFun.Injective_map_NoDup; [intros x y; lia|apply seq_NoDup].
  Qed.
  Lemma fold_min l : forall r x, In x (r :: l) -> fold_left Z.min l r <= x.
  Proof.
    induction l as [|y l IH]; intros r x H; cbn [fold_left].
    - destruct H as [->|[]]. lia.
    - destruct H as [->|[->|H]].
      + pose proof (IH (Z.min x y) (Z.min x y) (or_introl eq_refl)). lia.
      + pose proof (IH (Z.min r x) (Z.min r x) (or_introl eq_refl)). lia.
      + apply IH. right. exact H.
  Qed.
  Lemma fold_max l : forall r x, In x (r :: l) -> x <= fold_left Z.max l r.
  Proof.
    induction l as [|y l IH]; intros r x H; cbn [fold_left].
    - destruct H as [->|[]]. lia.
    - destruct H as [->|[->|H]].
      + pose proof (IH (Z.max x y) (Z.max x y) (or_introl eq_refl)). lia.
      + pose proof (IH (Z.max r x) (Z.max r x) (or_introl eq_refl)). lia.
      + apply IH. right. exact H.
  Qed.
  Lemma col_conj col x : In x col \/ x = 0 -> let '(lo, hi) := col_range true col in lo <= x <= hi /\ lo <= - x <= hi.
  Proof.
    destruct col as [|r l]; cbn [col_range]; [intros [[]| ->]; lia|].
    pose proof (fold_min l r). pose proof (fold_max l r). intros [Hx| ->].
    - specialize (H x Hx). specialize (H0 x Hx). lia.
    - specialize (H r (or_introl eq_refl)). specialize (H0 r (or_introl eq_refl)). lia.
  Qed.
  Lemma col_in cj col x : In x col -> let '(lo, hi) := col_range cj col in lo <= x <= hi.
  Proof.
    intros Hx. destruct col as [|r l]; cbn [col_range]; [destruct Hx|]. pose proof (fold_min l r x Hx). pose proof (fold_max l r x Hx). destruct cj; lia.
  Qed.
End View.

(** ** Hopping terms of a synchronised cell *)
Section Hops.
  Context {E T W L : Type} {ST : Scalar T} (TL : ScalarLaws T).
  Context (big : E -> bool) (lat : mat T) (org : vec T) (s : cached E T W L).
  Notation pos := (map fst (c_orb s)).
  Notation term := (rn3 * pair2 * E)%type.
  Context (Hr : Forall (in_range (Z.of_nat (length pos))) (c_hop s)).

  Definition key_arrow (tau : Z -> vec T) (k : (Z * Z * Z) * (Z * Z)) : vec T * vec T :=
    let '(R, (i, j)) := k in (site lat org (tau i) (0, 0, 0), site lat org (tau j) R).
  Definition term_keys (cj : bool) (t : term) : list ((Z * Z * Z) * (Z * Z)) :=
    let '(rn, (i, j), e) := t in if big e then (rn, (i, j)) :: (if cj then [(opp3 rn, (j, i))] else []) else [].

  Lemma aread_pos i : 0 <= i < Z.of_nat (length pos) -> aread pos i = Ok (at_pos pos i).
  Proof.
    intros H. unfold aread, at_pos. replace (i <? 0) with false by lia. destruct (nth_error pos (Z.to_nat i)) as [v|] eqn:E1.
    - rewrite (nth_error_nth _ _ _ E1). reflexivity.
    - apply nth_error_None in E1. lia.
  Qed.
  Lemma aread_cell i : 0 <= i < Z.of_nat (length pos) -> aread (cell_pos lat org s) i = Ok (vadd (vmat (at_pos pos i) lat) org).
  Proof.
    intros H. unfold aread, cell_pos. replace (i <? 0) with false by lia.
    destruct (nth_error (c_orb s) (Z.to_nat i)) as [q|] eqn:E1.
    - rewrite (map_nth_error _ _ _ E1). do 2 f_equal. unfold at_pos. rewrite (nth_error_nth _ _ _ (map_nth_error fst _ _ E1)). reflexivity.
    - apply nth_error_None in E1. rewrite map_length in H. lia.
  Qed.

  Definition term_of (t : term) : Z * Z * E * vec T :=
    let '(rn, (i, j), e) := t in (i, j, e, vmat (vsub (vadd (at_pos pos j) (vZ rn)) (at_pos pos i)) lat).
  Lemma mapM_map {A B} (f : A -> res B) g l : (forall a, In a l -> f a = Ok (g a)) -> mapM f l = Ok (map g l).
  Proof. induction l as [|a l IH]; intros H; [reflexivity|]. cbn [mapM map]. rewrite (H a (or_introl eq_refl)), IH by (intros; apply H; right; assumption). reflexivity. Qed.
  Lemma cell_terms_ok : cell_terms lat s = Ok (map term_of (c_hop s)).
  Proof.
    unfold cell_terms. apply mapM_map. intros [[rn [i j]] e] Hin. rewrite Forall_forall in Hr. destruct (Hr _ Hin) as [Hi Hj].
    cbn [cell_dr term_of]. rewrite !aread_pos by assumption. reflexivity.
  Qed.
  Lemma map_flat {A B C} (f : B -> C) (g : A -> list B) l : map f (flat_map g l) = flat_map (fun a => map f (g a)) l.
  Proof. induction l as [|a l IH]; [reflexivity|]. cbn [flat_map]. rewrite map_app, IH. reflexivity. Qed.
  Definition tau0 (i : Z) : vec T := at_pos pos i.
  Lemma hops_ok w cj ar : plot_hops big w (cell_pos lat org s) (cell_pos lat org s) cj ar (map term_of (c_hop s)) =
    Ok (let ends := map (key_arrow tau0) (flat_map (term_keys cj) (c_hop s)) in
        if ar then map (fun q => arrow w (fst q) (snd q)) ends else [Lines (map (fun q => (proj w (fst q), proj w (snd q))) ends)]).
  Proof.
    unfold plot_hops. assert (H : mapM (hop_ends big (cell_pos lat org s) (cell_pos lat org s) cj) (map term_of (c_hop s)) =
      Ok (map (fun t => map (key_arrow tau0) (term_keys cj t)) (c_hop s))).
    { rewrite Forall_forall in Hr. revert Hr. generalize (c_hop s) as l. induction l as [|[[rn [i j]] e] l IH]; intros Hl; [reflexivity|].
      cbn [map mapM term_of]. destruct (Hl _ (or_introl eq_refl)) as [Hi Hj]. cbn [hop_ends term_keys]. rewrite IH by (intros x Hx; apply Hl; right; exact Hx).
      destruct (big e); [|reflexivity]. rewrite (aread_cell i Hi). cbn [bind]. rewrite (site_to TL lat org (at_pos pos i) (at_pos pos j) rn).
      destruct cj.
      - rewrite (aread_cell j Hj). cbn [bind]. rewrite (site_back TL lat org (at_pos pos i) (at_pos pos j) rn).
        cbn [map key_arrow]. unfold tau0. rewrite !(site_0 TL). reflexivity.
      - cbn [bind map key_arrow]. unfold tau0. rewrite !(site_0 TL). reflexivity. }
    rewrite H. cbn [bind]. rewrite <- flat_map_concat_map. rewrite (map_flat (key_arrow tau0) (term_keys cj)). destruct ar; reflexivity.
  Qed.
End Hops.

(** ** The keys drawn *)
Section Keys.
  Context {E : Type} (conj : E -> E) (big : E -> bool) (Hb : forall e, big (conj e) = big e).
  Notation term := (rn3 * pair2 * E)%type.
  Notation keys cj := (flat_map (term_keys big cj)).
  Lemma In_term_keys cj (l : list term) R i j : In (R, (i, j)) (keys cj l) <->
    exists e, big e = true /\ (In (R, (i, j), e) l \/ cj = true /\ In (opp3 R, (j, i), e) l).
  Proof.
    rewrite in_flat_map. split.
    - intros ([[rn [a b]] e] & Hin & H). cbn [term_keys] in H. destruct (big e) eqn:Eb; [|destruct H]. exists e. split; [exact Eb|].
      destruct H as [H|H].
      + left. injection H as <- <- <-. exact Hin.
      + right. destruct cj; [|destruct H]. destruct H as [H|[]]. injection H as <- <- <-. rewrite opp3_opp3. auto.
    - intros (e & Eb & [H|[-> H]]).
      + exists (R, (i, j), e). split; [exact H|]. cbn [term_keys]. rewrite Eb. left. reflexivity.
      + exists (opp3 R, (j, i), e). split; [exact H|]. cbn [term_keys]. rewrite Eb, opp3_opp3. right. left. reflexivity.
  Qed.
  Lemma keys_amp n (l : list term) amp R i j : stores conj n l amp ->
    In (R, (i, j)) (keys true l) <-> exists e, amp R i j = Some e /\ big e = true.
  Proof.
    intros [_ Hs]. rewrite In_term_keys. split.
    - intros (e & Eb & [H|[_ H]]).
      + exists e. split; [apply Hs; left; exact H|exact Eb].
      + exists (conj e). split; [apply Hs; right; exists e; auto|rewrite Hb; exact Eb].
    - intros (e & He & Eb). apply Hs in He. destruct He as [H|(e' & H & ->)].
      + exists e. auto.
      + rewrite Hb in Eb. exists e'. auto.
  Qed.
  Lemma NoDup_keys n cj (l : list term) : reduced n l -> NoDup (keys cj l).
  Proof.
    intros [Hn Hr]. induction l as [|[[rn [i j]] e] l IH]; [constructor|]. cbn [flat_map]. cbn [map fst] in Hn, Hr. inversion Hn as [|? ? Hx Hn']; subst.
    assert (Hr' : forall R i j, In (R, (i, j)) (map fst l) -> 0 <= i < n /\ 0 <= j < n /\ ~ (R = (0, 0, 0) /\ i = j) /\ ~ In (opp3 R, (j, i)) (map fst l)).
    { intros R a b H. destruct (Hr R a b (or_intror H)) as (? & ? & ? & H4). repeat split; try lia; [tauto|]. intros H5. apply H4. right. exact H5. }
    specialize (IH Hn' Hr'). destruct (Hr rn i j (or_introl eq_refl)) as (_ & _ & Hd & Ho).
    assert (N1 : ~ In (rn, (i, j)) (keys cj l)).
    { rewrite In_term_keys. intros (e' & _ & [H|[_ H]]); apply (in_map fst) in H; cbn [fst] in H; [contradiction|]. apply Ho. right. exact H. }
    assert (N2 : ~ In (opp3 rn, (j, i)) (keys cj l)).
    { rewrite In_term_keys. intros (e' & _ & [H|[_ H]]); apply (in_map fst) in H; cbn [fst] in H; [apply Ho; right; exact H|]. rewrite opp3_opp3 in H. contradiction. }
    cbn [term_keys]. destruct (big e); [|exact IH]. destruct cj; cbn [app].
    - constructor; [|constructor; assumption]. intros [H|H]; [|contradiction]. injection H as H1 H2 H3. subst j.
      apply Hd. split; [|reflexivity]. destruct rn as [[x y] z]. cbn [opp3] in H1. injection H1. intros. f_equal; [f_equal|]; lia.
    - constructor; assumption.
  Qed.
End Keys.
