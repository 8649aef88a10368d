(** Proofs about merged cells. *)
From Verif Require Import Prelude Vec M_hop M_pc M_index M_super M_build S_pc S_index S_super S_build
  L_base L_hop L_pc L_index L_super L_super2 L_super3 L_super4 L_build L_build2.

Section Merge.
  Context {E T W L : Type} {ST : Scalar T} (conj : E -> E) (conj_conj : forall e, conj (conj e) = e).
  Context (c2f : mat T -> vec T -> vec T -> vec T)
          (lat_mismatch : mat T -> mat T -> bool) (ext_ge : T -> T -> bool).
  Notation gcell := (gcell E T W L).
  Notation pc := (pc E T W L).

  Definition cell_eq (c c' : gcell) : Prop :=
    hop (g_pc c') = hop (g_pc c) /\ locked (g_pc c') = locked (g_pc c) /\ g_ext c' = g_ext c /\
    Forall2 (orb_eq (g_lat c) (g_org c) (g_lat c') (g_org c')) (orbs (g_pc c)) (orbs (g_pc c')).

  Lemma Forall2_refl' {A} (P : A -> A -> Prop) l : (forall x, P x x) -> Forall2 P l l.
  Proof. intros H. induction l; constructor; auto. Qed.
  Lemma Forall2_trans' {A} (P Q R : A -> A -> Prop) l1 : forall l2 l3, (forall x y z, P x y -> Q y z -> R x z) ->
    Forall2 P l1 l2 -> Forall2 Q l2 l3 -> Forall2 R l1 l3.
  Proof.
    induction l1 as [|x l1 IH]; intros l2 l3 H H1 H2; inversion H1; subst; inversion H2; subst; constructor; eauto.
  Qed.
  Lemma cell_eq_refl c : cell_eq c c.
  Proof. repeat split. apply Forall2_refl'. intros o. repeat split. Qed.
  Lemma cell_eq_trans a b c : cell_eq a b -> cell_eq b c -> cell_eq a c.
  Proof.
    intros (A1 & A2 & A3 & A4) (B1 & B2 & B3 & B4). split; [congruence|]. split; [congruence|]. split; [congruence|].
    eapply Forall2_trans'; [|exact A4|exact B4]. intros x y z (X1 & X2 & X3) (Y1 & Y2 & Y3). repeat split; congruence.
  Qed.
  Lemma cell_eq_num c c' : cell_eq c c' -> num_orb (g_pc c') = num_orb (g_pc c).
  Proof. intros (_ & _ & _ & H). unfold num_orb. apply Forall2_len in H. lia. Qed.

  Lemma Forall2_set_nth {A} (P : A -> A -> Prop) l l' k y x : Forall2 P l l' -> nth_error l k = Some x -> P x y -> Forall2 P l (set_nth k l' y).
  Proof.
    intros H. revert k. induction H as [|a b l l' Hab H IH]; intros k Hk Hp; [destruct k; discriminate|].
    destruct k as [|k]; cbn [set_nth].
    - injection Hk as ->. constructor; assumption.
    - constructor; auto.
  Qed.

  Context (lat : mat T) (org : vec T).
  Hypothesis c2f_ok : forall x, vadd (vmat (c2f lat org x) lat) org = x.

  Lemma reset_ok (c : gcell) : locked (g_pc c) = false ->
    exists c', reset_lattice c2f lat org c = (c', Ok tt) /\ cell_eq c c' /\ g_lat c' = lat /\ g_org c' = org.
  Proof.
    intros Hl. unfold reset_lattice. rewrite Hl. eexists. split; [reflexivity|]. cbn [g_lat g_org g_pc g_ext].
    split; [|auto]. split; [reflexivity|]. split; [reflexivity|]. split; [reflexivity|].
    cbn [set_orbs orbs g_pc]. induction (orbs (g_pc c)) as [|o l IH]; constructor; [|exact IH].
    split; [reflexivity|]. split; [reflexivity|]. cbn [position g_lat g_org]. apply c2f_ok.
  Qed.

  Lemma add_orbs_fold l : forall p : pc, locked p = false ->
    fold_left (fun acc o => bind acc (fun p =>
      let '(x, y, z) := position o in lift1 (add_orbital s0 p [x; y; z] (energy o) (label o)))) l (Ok p) =
    Ok (set_orbs p (orbs p ++ l)).
  Proof.
    induction l as [|o l IH]; intros p Hl; cbn [fold_left].
    - rewrite app_nil_r. destruct p; reflexivity.
    - cbn [bind]. destruct (position o) as [[x y] z] eqn:Hp. rewrite add_orbital_ok by assumption. rewrite IH by assumption.
      cbn [set_orbs orbs locked hop]. rewrite <- app_assoc. destruct o as [po w l0]. cbn in *. subst po. reflexivity.
  Qed.

  Lemma merge_orbs_ok cs : forall h0 h (p : pc), Forall2 cell_eq h0 h -> locked p = false ->
    Forall (fun k => exists c, nth_error h0 k = Some c /\ locked (g_pc c) = false) cs ->
    exists h' blocks, merge_orbs c2f lat org h p cs = (h', Ok (set_orbs p (orbs p ++ concat blocks))) /\
      Forall2 cell_eq h0 h' /\
      Forall2 (fun k b => exists c, nth_error h0 k = Some c /\ Forall2 (orb_eq (g_lat c) (g_org c) lat org) (orbs (g_pc c)) b) cs blocks.
  Proof.
    induction cs as [|k cs IH]; intros h0 h p Hh Hl Hcs.
    - exists h, []. cbn [merge_orbs concat]. rewrite app_nil_r. split; [destruct p; reflexivity|]. split; [assumption|constructor].
    - destruct (Forall_inv Hcs) as (c0 & Hc0 & Hlc). apply Forall_inv_tail in Hcs.
      destruct (Forall2_nth_l _ _ _ Hh k c0 Hc0) as (c & Hc & Hce).
      assert (Hlc' : locked (g_pc c) = false) by (destruct Hce as (_ & H & _); congruence).
      destruct (reset_ok c Hlc') as (c' & Hr & Hce' & Hlat & Horg).
      cbn [merge_orbs]. rewrite Hc, Hr. rewrite add_orbs_fold by assumption.
      pose proof (cell_eq_trans _ _ _ Hce Hce') as Hce2.
      assert (Hh' : Forall2 cell_eq h0 (set_nth k h c')) by (eapply Forall2_set_nth; eassumption).
      destruct (IH h0 (set_nth k h c') (set_orbs p (orbs p ++ orbs (g_pc c'))) Hh' Hl Hcs) as (h' & blocks & H1 & H2 & H3).
      exists h', (orbs (g_pc c') :: blocks). rewrite H1. cbn [set_orbs orbs locked hop concat]. rewrite <- app_assoc.
      split; [reflexivity|]. split; [assumption|]. constructor; [|assumption]. exists c0. split; [assumption|].
      destruct Hce2 as (_ & _ & _ & H). rewrite Hlat, Horg in H. exact H.
  Qed.

  (** ** hoppings *)
  Lemma add_terms_ok ob ok l : forall p : pc, locked p = false -> Forall (w_ok (num_orb p)) (placed ob ok l) ->
    add_terms conj ob ok l (Ok p) = Ok (set_hop p (writes conj (hop p) (placed ob ok l))).
  Proof.
    induction l as [|[[r [i j]] e] l IH]; intros p Hl Hf.
    - unfold add_terms. cbn [fold_left placed map writes]. destruct p; reflexivity.
    - cbn [placed map] in Hf. destruct (Forall_inv Hf) as (H1 & H2 & H3). apply Forall_inv_tail in Hf.
      unfold add_terms. cbn [fold_left bind]. destruct r as [[a b] c]. cbn [row3]. rewrite add_hopping_ok by assumption.
      specialize (IH (set_hop p (ih_add conj (hop p) (a, b, c) (i + ob) (j + ok) e)) Hl Hf). unfold add_terms in IH. rewrite IH.
      cbn [placed map writes fold_left]. destruct p; reflexivity.
  Qed.
  Lemma writes_app d (l1 l2 : list (wterm (E:=E))) : writes conj (writes conj d l1) l2 = writes conj d (l1 ++ l2).
  Proof. unfold writes. rewrite fold_left_app. reflexivity. Qed.

  Fixpoint intra_ws (off : Z) (cells : list gcell) : list (wterm (E:=E)) :=
    match cells with
    | [] => []
    | c :: r => placed off off (flatten (hop (g_pc c))) ++ intra_ws (off + num_orb (g_pc c)) r
    end.

  Fixpoint Fb (cells : list gcell) (r : Z * Z * Z) (x y : Z) : option E :=
    match cells with
    | [] => None
    | c :: rest =>
      let n := num_orb (g_pc c) in
      if (0 <=? x) && (x <? n) && (0 <=? y) && (y <? n) then ih_get conj (hop (g_pc c)) r x y
      else Fb rest r (x - n) (y - n)
    end.

  Definition sizes (cells : list gcell) : list Z := map (fun c => num_orb (g_pc c)) cells.

  Lemma num_nonneg (p : pc) : 0 <= num_orb p. Proof. unfold num_orb. lia. Qed.

  Lemma Fb_neg cells : forall r x y, x < 0 \/ y < 0 -> Fb cells r x y = None.
  Proof.
    induction cells as [|c cells IH]; intros r x y H; [reflexivity|]. cbn [Fb].
    pose proof (num_nonneg (g_pc c)).
    replace ((0 <=? x) && (x <? num_orb (g_pc c)) && (0 <=? y) && (y <? num_orb (g_pc c))) with false by lia. apply IH. lia.
  Qed.

  Lemma block_start_S s l p : block_start (s :: l) (S p) = s + block_start l p.
  Proof. reflexivity. Qed.
  Lemma block_start_nonneg (cells : list gcell) p : 0 <= block_start (sizes cells) p.
  Proof.
    revert p. induction cells as [|c cells IH]; intros [|p]; try (cbn; lia). cbn [sizes map]. rewrite block_start_S.
    specialize (IH p). pose proof (num_nonneg (g_pc c)). unfold sizes in IH. lia.
  Qed.

  Lemma Fb_block cells : forall p q cp cq r i j, nth_error cells p = Some cp -> nth_error cells q = Some cq ->
    0 <= i < num_orb (g_pc cp) -> 0 <= j < num_orb (g_pc cq) ->
    Fb cells r (block_start (sizes cells) p + i) (block_start (sizes cells) q + j) =
    if Nat.eqb p q then ih_get conj (hop (g_pc cp)) r i j else None.
  Proof.
    induction cells as [|c cells IH]; intros p q cp cq r i j Hp Hq Hi Hj; [destruct p; discriminate|].
    cbn [Fb sizes map]. pose proof (num_nonneg (g_pc c)).
    destruct p as [|p], q as [|q]; cbn [nth_error Nat.eqb] in *.
    - injection Hp as ->. injection Hq as ->. cbn [block_start firstn fold_right].
      replace ((0 <=? 0 + i) && _ && _ && _) with true by lia. f_equal; lia.
    - injection Hp as ->. rewrite block_start_S. cbn [block_start firstn fold_right].
      pose proof (block_start_nonneg cells q). fold (sizes cells).
      replace ((0 <=? 0 + i) && _ && _ && _) with false by lia. apply Fb_neg. lia.
    - injection Hq as ->. rewrite block_start_S. cbn [block_start firstn fold_right].
      pose proof (block_start_nonneg cells p). fold (sizes cells).
      replace ((_ <=? _) && _ && _ && _) with false by lia. apply Fb_neg. lia.
    - rewrite !block_start_S. fold (sizes cells).
      pose proof (block_start_nonneg cells p). pose proof (block_start_nonneg cells q).
      replace ((_ <=? _) && _ && _ && _) with false by lia.
      rewrite <- (IH p q cp cq r i j Hp Hq Hi Hj). f_equal; lia.
  Qed.

  Lemma Inv_term (p : pc) R i j e : Inv p -> In (R, (i, j), e) (flatten (hop p)) ->
    0 <= i < num_orb p /\ 0 <= j < num_orb p /\ ~ (R = (0, 0, 0) /\ i = j) /\
    ih_get conj (hop p) R i j = Some e /\ ih_get conj (hop p) (opp3 R) j i = Some (conj e).
  Proof.
    intros Hinv Hin. pose proof Hinv as (Hw & _ & Hp).
    apply look_In in Hin; [|assumption]. destruct (Hp _ _ _ _ Hin) as (Hc & H1 & H2 & H3).
    split; [assumption|]. split; [assumption|]. split; [assumption|].
    assert (Hg : ih_get conj (hop p) R i j = Some e) by (rewrite ih_get_norm by assumption; exact Hin).
    split; [assumption|]. change (opp3 R) with (rn_neg R). rewrite ih_get_herm by assumption. rewrite Hg. reflexivity.
  Qed.

  Lemma In_placed ob ok (l : list (Z * Z * Z * (Z * Z) * E)) r x y e : In (r, x, y, e) (placed ob ok l) <-> In (r, (x - ob, y - ok), e) l.
  Proof.
    unfold placed. rewrite in_map_iff. split.
    - intros ([[r0 [i j]] e0] & Heq & Hin). injection Heq as -> <- <- ->. rewrite !Z.add_simpl_r. exact Hin.
    - intros H. exists (r, (x - ob, y - ok), e). split; [|exact H]. repeat f_equal; lia.
  Qed.

  Lemma intra_ws_spec cells : Forall (fun c => Inv (g_pc c)) cells -> forall off r x y e,
    In (r, x, y, e) (intra_ws off cells) ->
    Fb cells r (x - off) (y - off) = Some e /\ Fb cells (opp3 r) (y - off) (x - off) = Some (conj e) /\
    0 <= x - off < block_start (sizes cells) (length cells) /\ 0 <= y - off < block_start (sizes cells) (length cells) /\
    ~ (r = (0, 0, 0) /\ x = y).
  Proof.
    induction cells as [|c cells IH]; intros Hf off r x y e Hin; [destruct Hin|].
    pose proof (Forall_inv Hf) as Hc. apply Forall_inv_tail in Hf.
    cbn [sizes map length]. rewrite block_start_S. fold (sizes cells). pose proof (num_nonneg (g_pc c)).
    pose proof (block_start_nonneg cells (length cells)).
    cbn [intra_ws] in Hin. apply in_app_or in Hin. destruct Hin as [Hin|Hin].
    - apply In_placed in Hin. destruct (Inv_term _ _ _ _ _ Hc Hin) as (H1 & H2 & H3 & H4 & H5). cbn [Fb].
      replace ((0 <=? x - off) && _ && _ && _) with true by lia. replace ((0 <=? y - off) && _ && _ && _) with true by lia.
      split; [assumption|]. split; [assumption|]. split; [lia|]. split; [lia|]. intros [-> Hxy]. apply H3. split; [reflexivity|lia].
    - destruct (IH Hf _ _ _ _ _ Hin) as (H1 & H2 & H3 & H4 & H5). cbn [Fb].
      replace ((0 <=? x - off) && _ && _ && _) with false by lia. replace ((0 <=? y - off) && _ && _ && _) with false by lia.
      replace (x - off - num_orb (g_pc c)) with (x - (off + num_orb (g_pc c))) by lia.
      replace (y - off - num_orb (g_pc c)) with (y - (off + num_orb (g_pc c))) by lia.
      split; [assumption|]. split; [assumption|]. split; [lia|]. split; [lia|assumption].
  Qed.

  Lemma intra_ws_cover cells : Forall (fun c => Inv (g_pc c)) cells -> forall off r x y e,
    Fb cells r (x - off) (y - off) = Some e ->
    exists e', In (r, x, y, e') (intra_ws off cells) \/ In (opp3 r, y, x, e') (intra_ws off cells).
  Proof.
    induction cells as [|c cells IH]; intros Hf off r x y e HF; [discriminate|].
    pose proof (Forall_inv Hf) as Hc. apply Forall_inv_tail in Hf. cbn [Fb] in HF. cbn [intra_ws].
    destruct ((0 <=? x - off) && _ && _ && _) eqn:Hb.
    - destruct (hop_ok_stores conj conj_conj _ _ Hc) as [_ Hst]. apply Hst in HF. rewrite flatten_purge in HF.
      destruct HF as [H|(e' & H & _)].
      + exists e. left. apply in_or_app. left. apply In_placed. exact H.
      + exists e'. right. apply in_or_app. left. apply In_placed. exact H.
    - replace (x - off - num_orb (g_pc c)) with (x - (off + num_orb (g_pc c))) in HF by lia.
      replace (y - off - num_orb (g_pc c)) with (y - (off + num_orb (g_pc c))) in HF by lia.
      destruct (IH Hf _ _ _ _ _ HF) as (e' & [H|H]); exists e'; [left|right]; apply in_or_app; auto.
  Qed.

  Lemma intra_ws_F cells r x y : Forall (fun c => Inv (g_pc c)) cells ->
    last_write conj (intra_ws 0 cells) r x y None = Fb cells r x y.
  Proof.
    intros Hf. apply last_write_F.
    - intros r0 a b e Hin. destruct (intra_ws_spec cells Hf _ _ _ _ _ Hin) as (H1 & H2 & _).
      rewrite !Z.sub_0_r in *. auto.
    - auto.
    - destruct (Fb cells r x y) as [e|] eqn:HF; [right|left; reflexivity].
      apply (intra_ws_cover cells Hf 0 r x y e). rewrite !Z.sub_0_r. exact HF.
  Qed.

  Lemma last_write_app (l1 l2 : list (wterm (E:=E))) r i j now :
    last_write conj (l1 ++ l2) r i j now = last_write conj l2 r i j (last_write conj l1 r i j now).
  Proof. revert now. induction l1 as [|[[[r0 a] b] e] l1 IH]; intros now; [reflexivity|]. cbn [app last_write]. apply IH. Qed.

  Lemma parse_ok (args : list (@marg E)) : ~ In AOther args -> parse args = Ok (cells_of args, inters_of args).
  Proof.
    induction args as [|a args IH]; intros H; [reflexivity|]. cbn [parse].
    destruct a as [k|b k d|]; [| |exfalso; apply H; left; reflexivity]; rewrite IH by (intros Hi; apply H; right; exact Hi); reflexivity.
  Qed.

  Lemma index_of_first k cs p : first_at k cs p -> index_of k cs = Some p.
  Proof.
    revert p. induction cs as [|x cs IH]; intros p [H1 H2]; [destruct p; discriminate|]. cbn [index_of].
    destruct p as [|p].
    - injection H1 as ->. rewrite Nat.eqb_refl. reflexivity.
    - destruct (Nat.eqb_spec x k) as [->|Hne]; [exfalso; apply (H2 O); [lia|reflexivity]|].
      rewrite (IH p); [reflexivity|]. split; [exact H1|]. intros q Hq. apply (H2 (S q)). lia.
  Qed.
  Lemma first_at_ex k cs : In k cs -> exists p, first_at k cs p.
  Proof.
    induction cs as [|x cs IH]; intros H; [destruct H|]. destruct (Nat.eq_dec x k) as [->|Hne].
    - exists O. split; [reflexivity|]. intros q Hq. lia.
    - destruct H as [H|H]; [contradiction|]. destruct (IH H) as (p & H1 & H2). exists (S p). split; [exact H1|].
      intros [|q] Hq; [cbn; congruence|]. apply H2. lia.
  Qed.
  Lemma first_at_in k cs p : first_at k cs p -> existsb (Nat.eqb k) cs = true.
  Proof. intros [H _]. apply existsb_exists. exists k. split; [eapply nth_error_In; exact H|apply Nat.eqb_refl]. Qed.

  Lemma zsum_right l : zsum l = fold_right Z.add 0 l.
  Proof. unfold zsum. apply fold_symmetric; intros; lia. Qed.

  Lemma ind_start_block (h : list gcell) cs cells p : Forall2 (fun k c => nth_error h k = Some c) cs cells ->
    ind_start h cs p = block_start (sizes cells) p.
  Proof.
    intros H. unfold ind_start, block_start. rewrite zsum_right. f_equal. f_equal.
    induction H as [|k c cs cells Hk H IH]; [reflexivity|]. cbn [map sizes]. rewrite Hk. f_equal. exact IH.
  Qed.

  Lemma block_start_firstn_S (cells : list gcell) p c : nth_error cells p = Some c ->
    block_start (sizes cells) (S p) = block_start (sizes cells) p + num_orb (g_pc c).
  Proof.
    revert p. induction cells as [|x cells IH]; intros [|p] H; try discriminate.
    - injection H as ->. cbn. lia.
    - cbn [nth_error] in H. cbn [sizes map]. rewrite !block_start_S. fold (sizes cells). rewrite (IH p H). lia.
  Qed.
  Lemma block_start_mono (cells : list gcell) p q : (p <= q)%nat -> block_start (sizes cells) p <= block_start (sizes cells) q.
  Proof.
    revert p q. induction cells as [|x cells IH]; intros [|p] [|q] H; try (cbn; lia); try lia.
    - apply block_start_nonneg.
    - cbn [sizes map]. rewrite !block_start_S. fold (sizes cells). specialize (IH p q). lia.
  Qed.
  Lemma block_start_total (cells : list gcell) p c : nth_error cells p = Some c ->
    block_start (sizes cells) p + num_orb (g_pc c) <= block_start (sizes cells) (length cells).
  Proof.
    intros H. rewrite <- block_start_firstn_S by assumption. apply block_start_mono.
    assert (p < length cells)%nat by (apply nth_error_Some; congruence). lia.
  Qed.
  Lemma block_start_sep (cells : list gcell) p q cp cq i j : nth_error cells p = Some cp -> nth_error cells q = Some cq ->
    0 <= i < num_orb (g_pc cp) -> 0 <= j < num_orb (g_pc cq) ->
    block_start (sizes cells) p + i = block_start (sizes cells) q + j -> p = q /\ i = j.
  Proof.
    intros Hp Hq Hi Hj Heq. destruct (Nat.lt_trichotomy p q) as [Hlt|[->|Hlt]].
    - pose proof (block_start_mono cells (S p) q Hlt) as H. rewrite (block_start_firstn_S _ _ _ Hp) in H. lia.
    - split; [reflexivity|lia].
    - pose proof (block_start_mono cells (S q) p Hlt) as H. rewrite (block_start_firstn_S _ _ _ Hq) in H. lia.
  Qed.


  Lemma hop_set_hop (p : pc) d : hop (set_hop p d) = d. Proof. reflexivity. Qed.

  Lemma intra_fold (st : nat -> Z) (h' : list gcell) (all : list gcell) (p : pc) : locked p = false ->
    (forall k, st k = block_start (sizes all) k) ->
    forall cs cells pre d, all = pre ++ cells ->
    Forall2 (fun k c => exists c', nth_error h' k = Some c' /\ hop (g_pc c') = hop (g_pc c)) cs cells ->
    Forall (w_ok (num_orb p)) (intra_ws (block_start (sizes all) (length pre)) cells) ->
    fold_left (fun acc (q : Z * nat) =>
        match nth_error h' (snd q) with
        | Some c => add_terms conj (st (Z.to_nat (fst q))) (st (Z.to_nat (fst q))) (flatten (hop (g_pc c))) acc
        | None => acc
        end) (combine (map Z.of_nat (seq (length pre) (length cs))) cs) (Ok (set_hop p d)) =
    Ok (set_hop p (writes conj d (intra_ws (block_start (sizes all) (length pre)) cells))).
  Proof.
    intros Hl Hst. induction cs as [|k cs IH]; intros cells pre d Hall HF Hw; inversion HF; subst.
    - reflexivity.
    - rename y into c, l' into cells. destruct H1 as (c' & Hc' & Hh). cbn [length seq map combine fold_left fst snd].
      rewrite Nat2Z.id. rewrite Hc'. rewrite Hst, Hh.
      cbn [intra_ws] in Hw. apply Forall_app in Hw. destruct Hw as [Hw1 Hw2].
      rewrite add_terms_ok by assumption. cbn [intra_ws]. rewrite <- writes_app.
      assert (Hs : block_start (sizes (pre ++ c :: cells)) (length pre) + num_orb (g_pc c) =
                   block_start (sizes (pre ++ c :: cells)) (length (pre ++ [c]))).
      { rewrite app_length. cbn [length]. rewrite Nat.add_1_r. symmetry. apply block_start_firstn_S.
        rewrite nth_error_app2 by lia. rewrite Nat.sub_diag. reflexivity. }
      rewrite Hs in *.
      specialize (IH cells (pre ++ [c]) (writes conj d (placed (block_start (sizes (pre ++ c :: cells)) (length pre))
         (block_start (sizes (pre ++ c :: cells)) (length pre)) (flatten (hop (g_pc c)))))).
      rewrite <- app_assoc in IH. specialize (IH eq_refl H3 Hw2).
      rewrite app_length in IH at 1. cbn [length] in IH. rewrite Nat.add_1_r in IH. exact IH.
  Qed.

  Lemma inter_fold (st : nat -> Z) (cells : list gcell) cs (p : pc) : locked p = false ->
    (forall k, st k = block_start (sizes cells) k) ->
    forall hs wss d, inter_ws (sizes cells) cs hs wss ->
    Forall (w_ok (num_orb p)) (concat wss) ->
    fold_left (fun acc (q : nat * nat * @hops E) =>
        match index_of (fst (fst q)) cs, index_of (snd (fst q)) cs with
        | Some b, Some k => add_terms conj (st b) (st k) (flatten (snd q)) acc
        | _, _ => Err ValueError
        end) hs (Ok (set_hop p d)) = Ok (set_hop p (writes conj d (concat wss))).
  Proof.
    intros Hl Hst. induction hs as [|q hs IH]; intros wss d HF Hw; inversion HF; subst.
    - reflexivity.
    - destruct H1 as (b & k & Hb & Hk & ->). cbn [fold_left concat]. cbn [concat] in Hw.
      apply Forall_app in Hw. destruct Hw as [Hw1 Hw2].
      rewrite (index_of_first _ _ _ Hb), (index_of_first _ _ _ Hk), !Hst.
      rewrite add_terms_ok by assumption. rewrite <- writes_app. rewrite hop_set_hop. apply IH; assumption.
  Qed.

  Lemma concat_nth {A} (bs : list (list A)) : forall p b i x, nth_error bs p = Some b -> nth_error b i = Some x ->
    nth_error (concat bs) (length (concat (firstn p bs)) + i) = Some x.
  Proof.
    induction bs as [|b0 bs IH]; intros [|p] b i x Hp Hi; try discriminate.
    - injection Hp as ->. cbn [firstn concat length]. rewrite nth_error_app1 by (apply nth_error_Some; cbn; congruence). exact Hi.
    - cbn [nth_error] in Hp. cbn [firstn concat]. rewrite app_length, <- Nat.add_assoc.
      rewrite nth_error_app2 by lia. replace (_ + (_ + i) - length b0)%nat with (length (concat (firstn p bs)) + i)%nat by lia.
      apply (IH p b); assumption.
  Qed.

  Lemma blocks_len (cells : list gcell) (blocks : list (list (orbital T W L))) p : Forall2 (fun c b => length (orbs (g_pc c)) = length b) cells blocks ->
    Z.of_nat (length (concat (firstn p blocks))) = block_start (sizes cells) p.
  Proof.
    intros H. revert p. induction H as [|c b cells blocks Hc H IH]; intros [|p]; try reflexivity.
    cbn [sizes map]. rewrite block_start_S. fold (sizes cells). rewrite <- IH. cbn [firstn concat]. rewrite app_length.
    unfold num_orb. lia.
  Qed.

  Theorem merge_ok (h : list gcell) args k0 ks (c0 : gcell) cells wss :
    ~ In AOther args -> cells_of args = k0 :: ks -> nth_error h k0 = Some c0 -> lat = g_lat c0 -> org = g_org c0 ->
    Forall2 (fun k c => nth_error h k = Some c) (k0 :: ks) cells ->
    Forall (fun c => lat_mismatch (g_lat c) (g_lat c0) = false /\ locked (g_pc c) = false /\ Inv (g_pc c)) cells ->
    inter_ws (sizes cells) (k0 :: ks) (inters_of args) wss ->
    Forall (w_ok (block_start (sizes cells) (length cells))) (concat wss) ->
    exists h' m, merge conj c2f lat_mismatch ext_ge h args = (h', Ok m) /\
      Forall2 cell_eq h h' /\
      locked (g_pc m) = false /\ g_lat m = lat /\ g_org m = org /\
      num_orb (g_pc m) = block_start (sizes cells) (length cells) /\ Inv (g_pc m) /\
      (forall p c i o, nth_error cells p = Some c -> nth_error (orbs (g_pc c)) i = Some o ->
         exists o', nth_error (orbs (g_pc m)) (Z.to_nat (block_start (sizes cells) p + Z.of_nat i)) = Some o' /\
                    orb_eq (g_lat c) (g_org c) lat org o o') /\
      forall p q cp cq r i j, nth_error cells p = Some cp -> nth_error cells q = Some cq ->
        0 <= i < num_orb (g_pc cp) -> 0 <= j < num_orb (g_pc cq) ->
        ih_get conj (hop (g_pc m)) r (block_start (sizes cells) p + i) (block_start (sizes cells) q + j) =
        last_write conj (concat wss) r (block_start (sizes cells) p + i) (block_start (sizes cells) q + j)
          (if Nat.eqb p q then ih_get conj (hop (g_pc cp)) r i j else None).
  Proof.
    intros Ho Hcs Hk0 Hlat Horg Hcells Hall Hin Hw.
    assert (Hinv : Forall (fun c => Inv (g_pc c)) cells) by (eapply Forall_impl; [|exact Hall]; cbn; tauto).
    assert (Hcs2 : Forall (fun k => exists c, nth_error h k = Some c /\ locked (g_pc c) = false) (k0 :: ks)).
    { apply Forall_forall. intros k Hk. apply In_nth_error in Hk. destruct Hk as (n & Hn).
      destruct (Forall2_nth_l _ _ _ Hcells n k Hn) as (c & Hc & Hh). exists c. split; [assumption|].
      rewrite Forall_forall in Hall. apply nth_error_In in Hc. apply Hall in Hc. tauto. }
    destruct (merge_orbs_ok (k0 :: ks) h h pc_empty (Forall2_refl' cell_eq h cell_eq_refl) eq_refl Hcs2)
      as (h' & blocks & Hmo & Hh' & Hbl).
    assert (Hblen : Forall2 (fun c b => length (orbs (g_pc c)) = length b) cells blocks).
    { clear - Hcells Hbl. revert blocks Hbl. induction Hcells as [|k c cs cells Hk H IH]; intros blocks Hbl; inversion Hbl; subst; constructor.
      - destruct H2 as (c' & Hc' & HF). rewrite Hk in Hc'. injection Hc' as <-. apply Forall2_len in HF. exact HF.
      - apply IH. assumption. }
    assert (Hn : Z.of_nat (length (concat blocks)) = block_start (sizes cells) (length cells)).
    { rewrite <- (blocks_len cells blocks (length cells) Hblen).
      rewrite (Forall2_len _ _ _ Hblen), firstn_all. reflexivity. }
    set (p0 := set_orbs (pc_empty : pc) (concat blocks)).
    assert (Hn0 : num_orb p0 = block_start (sizes cells) (length cells)) by exact Hn.
    assert (Hwi : Forall (w_ok (num_orb p0)) (intra_ws 0 cells)).
    { apply Forall_forall. intros [[[r x] y] e] Hi. destruct (intra_ws_spec cells Hinv _ _ _ _ _ Hi) as (_ & _ & H3 & H4 & H5).
      rewrite !Z.sub_0_r in *. rewrite Hn0. split; [assumption|]. split; assumption. }
    assert (Hst : forall k, ind_start h (k0 :: ks) k = block_start (sizes cells) k) by (intros k; apply ind_start_block; assumption).
    assert (HF' : Forall2 (fun k c => exists c', nth_error h' k = Some c' /\ hop (g_pc c') = hop (g_pc c)) (k0 :: ks) cells).
    { clear - Hcells Hh'. induction Hcells as [|k c cs cells Hk H IH]; constructor; [|exact IH].
      destruct (Forall2_nth_l _ _ _ Hh' k c Hk) as (c' & Hc' & He). exists c'. split; [assumption|]. apply He. }
    set (d1 := writes conj [] (intra_ws 0 cells)).
    assert (H1 := intra_fold (ind_start h (k0 :: ks)) h' cells p0 eq_refl Hst (k0 :: ks) cells [] [] eq_refl HF' Hwi).
    rewrite <- Hn0 in Hw.
    assert (H2 := inter_fold (ind_start h (k0 :: ks)) cells (k0 :: ks) p0 eq_refl Hst (inters_of args) wss d1 Hin Hw).
    exists h', {| g_pc := set_hop p0 (writes conj d1 (concat wss)); g_lat := lat; g_org := org;
                  g_ext := if existsb (fun c => ext_ge (g_ext c) (g_ext c0)) cells then s1 else g_ext c0 |}.
    destruct (writes_ok conj conj_conj (num_orb p0) (intra_ws 0 cells) [] (hop_ok_nil _) Hwi) as [W1 W2].
    destruct (writes_ok conj conj_conj (num_orb p0) (concat wss) d1 W1 Hw) as [W3 W4].
    split; [|split; [exact Hh'|split; [reflexivity|split; [reflexivity|split; [reflexivity|split; [exact Hn0|split; [exact W3|split]]]]]]].
    - unfold merge. destruct args as [|a args]; [discriminate|]. rewrite parse_ok by assumption. rewrite Hcs. cbn [fst snd].
      rewrite Hk0.
      assert (Hm : mapM (fun k => match nth_error h k with Some c => Ok c | None => Err IndexError end) (k0 :: ks) = Ok cells).
      { clear - Hcells. induction Hcells as [|k c cs cells Hk H IH]; [reflexivity|]. cbn [mapM]. rewrite Hk. cbn [bind]. rewrite IH. reflexivity. }
      rewrite Hm.
      assert (He1 : existsb (fun c => lat_mismatch (g_lat c) (g_lat c0)) cells = false).
      { apply not_true_is_false. intros H. apply existsb_exists in H. destruct H as (c & Hc & Hcm).
        rewrite Forall_forall in Hall. apply Hall in Hc. destruct Hc as [Hc _]. congruence. }
      rewrite He1.
      assert (He2 : existsb (fun q : nat * nat * @hops E =>
         negb (existsb (Nat.eqb (fst (fst q))) (k0 :: ks)) || negb (existsb (Nat.eqb (snd (fst q))) (k0 :: ks))) (inters_of (a :: args)) = false).
      { apply not_true_is_false. intros H. apply existsb_exists in H. destruct H as (q & Hq & Hbad).
        apply In_nth_error in Hq. destruct Hq as (n & Hq).
        destruct (Forall2_nth_l _ _ _ Hin n q Hq) as (ws & _ & b & k & Hb & Hk & _).
        rewrite (first_at_in _ _ _ Hb), (first_at_in _ _ _ Hk) in Hbad. discriminate. }
      rewrite He2. rewrite <- Hlat, <- Horg. rewrite Hmo.
      cbv zeta. cbn [pc_empty orbs app]. cbv iota.
      assert (H3 := H2). change d1 with (writes conj [] (intra_ws (block_start (sizes cells) (length (@nil gcell))) cells)) in H3 at 1.
      rewrite <- H1 in H3.
      match goal with |- (_, match ?x with Ok _ => _ | Err _ => _ end) = _ => assert (Hx : x = Ok (set_hop p0 (writes conj d1 (concat wss)))) by (exact H3); rewrite Hx end.
      reflexivity.
    - intros p c i o Hp Hi. destruct (Forall2_nth_r _ _ _ Hcells p c Hp) as (k & Hk & Hkc).
      destruct (Forall2_nth_l _ _ _ Hbl p k Hk) as (b & Hb & c' & Hc' & HF). rewrite Hkc in Hc'. injection Hc' as <-.
      destruct (Forall2_nth_l _ _ _ HF i o Hi) as (o' & Ho' & Heq). exists o'. split; [|exact Heq].
      rewrite <- (blocks_len cells blocks p Hblen), <- Nat2Z.inj_add, Nat2Z.id. apply (concat_nth blocks p b i o' Hb Ho').
    - intros p q cp cq r i j Hp Hq Hi Hj. cbn [g_pc]. rewrite hop_set_hop. rewrite W4. f_equal.
      unfold d1. rewrite W2. rewrite get_nil. rewrite intra_ws_F by assumption. apply Fb_block with (cq := cq); assumption.
  Qed.

  Lemma inter_ws_ex (h : list gcell) cs (cells : list gcell) (hs : list (nat * nat * @hops E)) :
    Forall2 (fun k c => nth_error h k = Some c) cs cells -> inter_fits h cs hs ->
    exists wss, inter_ws (sizes cells) cs hs wss /\ Forall (w_ok (block_start (sizes cells) (length cells))) (concat wss).
  Proof.
    intros Hc. induction hs as [|[[b k] d] hs IH]; intros Hf.
    - exists []. split; constructor.
    - destruct IH as (wss & H1 & H2); [intros b' k' d' Hin; apply Hf; right; exact Hin|].
      destruct (Hf b k d (or_introl eq_refl)) as (Hb & Hk & Ht).
      destruct (first_at_ex _ _ Hb) as (pb & Hpb). destruct (first_at_ex _ _ Hk) as (pk & Hpk).
      exists (placed (block_start (sizes cells) pb) (block_start (sizes cells) pk) (flatten d) :: wss).
      split; [constructor; [exists pb, pk; auto|exact H1]|]. cbn [concat]. apply Forall_app. split; [|exact H2].
      apply Forall_forall. intros [[[r x] y] e] Hi. apply In_placed in Hi.
      destruct (Ht _ _ _ _ Hi) as (cb & ck & Hcb & Hck & Hi1 & Hi2 & Hd).
      destruct (Forall2_nth_l _ _ _ Hc pb b (proj1 Hpb)) as (cb' & Hcb' & Heb). rewrite Hcb in Heb. injection Heb as <-.
      destruct (Forall2_nth_l _ _ _ Hc pk k (proj1 Hpk)) as (ck' & Hck' & Hek). rewrite Hck in Hek. injection Hek as <-.
      pose proof (block_start_total cells pb cb Hcb'). pose proof (block_start_total cells pk ck Hck').
      pose proof (block_start_nonneg cells pb). pose proof (block_start_nonneg cells pk).
      split; [lia|]. split; [lia|]. intros [-> Hxy].
      destruct (block_start_sep cells pb pk cb ck _ _ Hcb' Hck' Hi1 Hi2 ltac:(lia)) as [Hp Hij].
      apply Hd. split; [reflexivity|]. split; [|exact Hij]. subst pk. destruct Hpb as [Hpb _], Hpk as [Hpk _]. congruence.
  Qed.
End Merge.

Section Refused.
  Context {E T W L : Type} {ST : Scalar T} (conj : E -> E)
          (c2f : mat T -> vec T -> vec T -> vec T)
          (lat_mismatch : mat T -> mat T -> bool) (ext_ge : T -> T -> bool).

  Lemma parse_other (args : list (@marg E)) : In AOther args -> parse args = Err ValueError.
  Proof.
    induction args as [|a args IH]; intros H; [destruct H|]. cbn [parse].
    destruct a as [k|b k d|]; [| |reflexivity]; (destruct H as [H|H]; [discriminate|]); rewrite IH by assumption; reflexivity.
  Qed.

  Lemma mapM_lt {A} (h : list A) cs : Forall (fun k => (k < length h)%nat) cs ->
    exists cells, mapM (fun k => match nth_error h k with Some c => Ok c | None => Err IndexError end) cs = Ok cells /\
      Forall2 (fun k c => nth_error h k = Some c) cs cells.
  Proof.
    induction cs as [|k cs IH]; intros Hf; [exists []; split; [reflexivity|constructor]|].
    pose proof (Forall_inv Hf) as Hk. cbn beta in Hk. destruct (IH (Forall_inv_tail Hf)) as (cells & H1 & H2).
    destruct (nth_error h k) as [c|] eqn:Hc; [|apply nth_error_None in Hc; lia].
    exists (c :: cells). split; [cbn [mapM]; rewrite Hc; cbn [bind]; rewrite H1; reflexivity|]. constructor; assumption.
  Qed.

  Lemma merge_refused (h : list (gcell E T W L)) args :
    (args = [] \/ In AOther args -> merge conj c2f lat_mismatch ext_ge h args = (h, Err ValueError)) /\
    (~ In AOther args -> Forall (fun k => (k < length h)%nat) (cells_of args) ->
     (exists k0 ks k c0 c, cells_of args = k0 :: ks /\ In k (k0 :: ks) /\ nth_error h k0 = Some c0 /\
        nth_error h k = Some c /\ lat_mismatch (g_lat c) (g_lat c0) = true) \/
     (cells_of args <> [] /\ exists b k d, In (b, k, d) (inters_of args) /\ (~ In b (cells_of args) \/ ~ In k (cells_of args))) ->
     merge conj c2f lat_mismatch ext_ge h args = (h, Err ValueError)).
  Proof.
    split.
    - intros [->|H]; [reflexivity|]. unfold merge. rewrite parse_other by assumption. destruct args; reflexivity.
    - intros Ho Hlt Hbad. unfold merge. destruct args as [|a args].
      { destruct Hbad as [(k0 & ks & k & c0 & c & H & _)|[H _]]; [discriminate|contradiction H; reflexivity]. }
      rewrite parse_ok by assumption.
      destruct (mapM_lt h _ Hlt) as (cells & Hm & HF). rewrite Hm.
      destruct (cells_of (a :: args)) as [|k0 ks] eqn:Hcs.
      { destruct Hbad as [(k0 & ks & k & c0 & c & H & _)|[H _]]; [discriminate|contradiction H; reflexivity]. }
      pose proof (Forall_inv Hlt) as Hk0. cbn beta in Hk0. destruct (nth_error h k0) as [c0|] eqn:Hc0; [|apply nth_error_None in Hc0; lia].
      destruct (existsb (fun c => lat_mismatch (g_lat c) (g_lat c0)) cells) eqn:He; [reflexivity|].
      destruct (existsb _ (inters_of (a :: args))) eqn:He2; [reflexivity|]. exfalso.
      destruct Hbad as [(k0' & ks' & k & c0' & c & H & Hin & H0 & Hk & Hmis)|(_ & b & k & d & Hin & Hn)].
      + injection H as <- <-. rewrite Hc0 in H0. injection H0 as <-.
        apply In_nth_error in Hin. destruct Hin as (n & Hn). destruct (Forall2_nth_l _ _ _ HF n k Hn) as (c' & Hc' & Hk').
        rewrite Hk in Hk'. injection Hk' as <-. apply nth_error_In in Hc'.
        rewrite (proj2 (existsb_exists _ _)) in He; [discriminate|]. exists c. auto.
      + rewrite (proj2 (existsb_exists _ _)) in He2; [discriminate|]. exists (b, k, d). split; [exact Hin|]. cbn [fst snd].
        apply orb_true_iff.
        destruct Hn as [Hn|Hn]; [left|right]; apply negb_true_iff, not_true_is_false; intros H; apply Hn; apply existsb_exists in H;
          destruct H as (x & Hx & Hxe); apply Nat.eqb_eq in Hxe; subst x; exact Hx.
  Qed.
End Refused.
