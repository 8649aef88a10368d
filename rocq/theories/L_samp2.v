(** Samples: index ranges, invariants of call sequences. *)
From Verif Require Import Prelude Vec Cx M_hop M_pc M_inter M_index M_super M_bloch M_sample S_pc S_reach S_sample S_comp L_base L_super L_super2 L_sample L_csr.
From Coq Require Import Permutation Sorted.

Lemma mapM_inv {A B} (f : A -> res B) l : forall ys, mapM f l = Ok ys -> Forall2 (fun x y => f x = Ok y) l ys.
Proof.
  induction l as [|x l IH]; intros ys H; cbn [mapM] in H; [injection H as <-; constructor|].
  destruct (f x) as [y|] eqn:Hf; [|discriminate]. cbn [bind] in H. destruct (mapM f l) as [r|]; [|discriminate]. injection H as <-.
  constructor; [exact Hf|]. apply IH. reflexivity.
Qed.
Lemma Forall2_Forall_r {A B} (R : A -> B -> Prop) (P : B -> Prop) l m : Forall2 R l m -> (forall x y, In x l -> R x y -> P y) -> Forall P m.
Proof. induction 1 as [|x y l m H HF IH]; intros Hp; constructor; [apply (Hp x); [left; reflexivity|exact H]|apply IH; intros a b Ha; apply Hp; right; exact Ha]. Qed.
Lemma flatM_Forall {A B} (f : A -> res (list B)) (P : B -> Prop) l r :
  (forall x y, f x = Ok y -> Forall P y) -> flatM f l = Ok r -> Forall P r.
Proof.
  intros Hf H. unfold flatM in H. destruct (mapM f l) as [ys|] eqn:Hm; [|discriminate]. injection H as <-.
  apply mapM_inv in Hm. apply Forall_concat. apply (Forall2_Forall_r _ _ _ _ Hm). intros x y _. apply Hf.
Qed.
Lemma bind_inv {A B} (x : res A) (f : A -> res B) r : bind x f = Ok r -> exists a, x = Ok a /\ f a = Ok r.
Proof. destruct x as [a|]; [|discriminate]. cbn [bind]. intros H. exists a. auto. Qed.
Ltac binv H := let a := fresh "a" in let H1 := fresh H in apply bind_inv in H; destruct H as (a & H1 & H).

Section Range.
  Context {E T : Type} {SE : Scalar E} {ST : Scalar T} (conj : E -> E).
  Notation row := (M_super.row E T).
  Definition rowin (n : nat) (r : row) : Prop := 0 <= r_i r < Z.of_nat n /\ 0 <= r_j r < Z.of_nat n.

  Lemma rd_lt {A} (l : list A) k x : rd l k = Ok x -> 0 <= k < Z.of_nat (length l).
  Proof. intros H. apply rd_inv in H. destruct H as [H1 H2]. assert (Z.to_nat k < length l)%nat by (apply nth_error_Some; congruence). lia. Qed.
  Lemma dr_of_range lat (pos : list (vec T)) i j rn d : dr_of lat pos i j rn = Ok d ->
    0 <= i < Z.of_nat (length pos) /\ 0 <= j < Z.of_nat (length pos).
  Proof. unfold dr_of. intros H. binv H. binv H. apply rd_lt in H0, H1. auto. Qed.

  Lemma hop_gen_one_range dim pbc n vac lat (pos : list (vec T)) io t h (r : list row) :
    hop_gen_one dim pbc n vac lat pos io t h = Ok r -> Forall (rowin (length pos)) r.
  Proof.
    unfold hop_gen_one. destruct dim as [[da db] dc], pbc as [[pa pb] pc], t as [[[ia ib] ic] o], h as [[[[ra rb] rc] [oi oj]] e].
    destruct (o =? oi); [|intros H; injection H as <-; constructor]. cbv zeta. intros H. do 3 binv H.
    destruct (_ || _ || _); [injection H as <-; constructor|]. binv H. destruct (_ || _) ; [|injection H as <-; constructor].
    do 4 binv H. injection H as <-. constructor; [|constructor]. eapply dr_of_range. eassumption.
  Qed.
  Lemma hop_pbc_one_range dim pbc n lat (pos : list (vec T)) ia ib ic h (r : row) :
    hop_pbc_one dim pbc n lat pos ia ib ic h = Ok r -> rowin (length pos) r.
  Proof.
    unfold hop_pbc_one. destruct dim as [[da db] dc], pbc as [[pa pb] pc], h as [[[[ra rb] rc] [oi oj]] e]. cbv zeta.
    intros H. apply bind_inv in H. destruct H as (q & _ & H). binv H. injection H as <-. eapply dr_of_range. eassumption.
  Qed.
  Lemma build_hop_gen_range tab dim pbc n ids vac lat (pos : list (vec T)) (r : list row) :
    build_hop_gen tab dim pbc n ids vac lat pos = Ok r -> Forall (rowin (length pos)) r.
  Proof. apply flatM_Forall. intros q y. apply flatM_Forall. intros h z. apply hop_gen_one_range. Qed.
  Lemma build_hop_pbc_range tab dim pbc n lat (pos : list (vec T)) (r : list row) :
    build_hop_pbc tab dim pbc n lat pos = Ok r -> Forall (rowin (length pos)) r.
  Proof.
    unfold build_hop_pbc. destruct dim as [[da db] dc]. apply flatM_Forall. intros ia y. apply flatM_Forall. intros ib z. apply flatM_Forall.
    intros ic w H. apply mapM_inv in H. apply (Forall2_Forall_r _ _ _ _ H). intros h q _. apply hop_pbc_one_range.
  Qed.
  Lemma init_hop_range s pos (r : list row) : M_super.init_hop s pos = Ok r -> Forall (rowin (length pos)) r.
  Proof.
    unfold M_super.init_hop. destruct (num_vac (s_os s) =? 0); [|apply build_hop_gen_range]. unfold init_hop_fast.
    destruct (split_pc_hop (s_tab s) (s_pbc s)) as [tp tf]. intros H. binv H. binv H. injection H as <-. apply Forall_app.
    split; [eapply build_hop_pbc_range; eassumption|eapply build_hop_gen_range; eassumption].
  Qed.
  Lemma Forall_set_nth {A} (P : A -> Prop) l k x : Forall P l -> P x -> Forall P (set_nth k l x).
  Proof. intros H Hx. revert k. induction H as [|a l Ha H IH]; intros [|k]; cbn [set_nth]; constructor; auto. Qed.
  Lemma set_row_range n (rows : list row) k v d : Forall (rowin n) rows -> Forall (rowin n) (set_row rows k v d).
  Proof.
    intros H. unfold set_row. destruct (nth_error rows (Z.to_nat k)) as [r|] eqn:Hr; [|exact H]. apply Forall_set_nth; [exact H|].
    rewrite Forall_forall in H. apply nth_error_In in Hr. apply (H r Hr).
  Qed.
  Lemma apply_modifier_range lat (pos : list (vec T)) terms : forall (rows new : list row) q,
    Forall (rowin (length pos)) rows -> Forall (rowin (length pos)) new -> apply_modifier conj lat pos terms rows new = Ok q ->
    Forall (rowin (length pos)) (fst q) /\ Forall (rowin (length pos)) (snd q).
  Proof.
    induction terms as [|[[rn [bra ket]] e] terms IH]; intros rows new q Hr Hn H; cbn [apply_modifier] in H; [injection H as <-; auto|].
    binv H. binv H. cbv zeta in H. destruct (find_equiv 0 rows bra ket) as [a1 a2].
    destruct (negb (a1 =? -1)); [eapply IH; [apply set_row_range; exact Hr|exact Hn|exact H]|].
    destruct (negb (a2 =? -1)); [eapply IH; [apply set_row_range; exact Hr|exact Hn|exact H]|].
    eapply IH; [exact Hr| |exact H]. apply Forall_app. split; [exact Hn|]. constructor; [|constructor].
    split; cbn [r_i r_j]; eapply rd_lt; eassumption.
  Qed.
  Lemma get_hop_range s pos (q : list row * dtype) : get_orb_pos s = Ok pos -> get_hop conj s = Ok q -> Forall (rowin (length pos)) (fst q).
  Proof.
    intros Hp. unfold get_hop. rewrite Hp. cbn [bind]. intros H. binv H. apply init_hop_range in H0.
    destruct (num_hop (s_mod s) =? 0)%nat; [injection H as <-; exact H0|]. binv H. apply apply_modifier_range in H1; [|exact H0|constructor].
    injection H as <-. cbn [fst]. apply Forall_app. exact H1.
  Qed.
  Lemma inter_range sb sk x c pb pk (rows : list row) : get_orb_pos sb = Ok pb -> get_orb_pos sk = Ok pk -> inter_get_hop sb sk x c = Ok rows ->
    Forall (fun r => 0 <= r_i r < Z.of_nat (length pb) /\ 0 <= r_j r < Z.of_nat (length pk)) rows.
  Proof.
    intros Hb Hk. unfold inter_get_hop. destruct (num_hop (i_hops x) =? 0)%nat; [discriminate|]. rewrite Hb, Hk. cbn [bind]. intros H. binv H.
    destruct (_ && _); [discriminate|]. injection H as <-. apply mapM_inv in H0. apply (Forall2_Forall_r _ _ _ _ H0).
    intros [[rn [i j]] e] r _ Hr. unfold inter_row in Hr. binv Hr. binv Hr. injection Hr as <-. cbn [r_i r_j]. split; eapply rd_lt; eassumption.
  Qed.
End Range.

Section Fit.
  Context {E T : Type} {SE : Scalar E} {ST : Scalar T} (conj : E -> E) (h : heap E T).
  Notation row := (M_super.row E T).
  Notation sample := (sample E T).
  Notation n s := (m_num_orb h s).

  (** Component supercells as they are after any history (component_ok). *)
  Definition solid (s : sample) : Prop := forall i, In i (m_sc s) ->
    Z.of_nat (length (o_orb_id_pc (s_os (fst (h i))))) = num_orb_sc (s_os (fst (h i))) /\
    (exists l, sc_orb_eng h i = Ok l) /\ (exists l, get_orb_pos (fst (h i)) = Ok l) /\
    forall l, get_orb_pos (fst (h i)) = Ok l -> length l = length (o_orb_id_pc (s_os (fst (h i)))).
  Definition closed (s : sample) : Prop := forall b k x, In (b, k, x) (m_hop s) -> In b (m_sc s) /\ In k (m_sc s).

  Lemma solid_sized s : solid s -> sized h s.
  Proof. intros H i Hi. apply (H i Hi). Qed.
  Lemma exists_Forall2 {A B} (R : A -> B -> Prop) l : (forall x, In x l -> exists y, R x y) -> exists m, Forall2 R l m.
  Proof.
    induction l as [|x l IH]; intros H; [exists []; constructor|]. destruct (H x (or_introl eq_refl)) as (y & Hy).
    destruct IH as (m & Hm); [intros; apply H; right; assumption|]. exists (y :: m). constructor; assumption.
  Qed.

  Lemma eng_fresh s : solid s -> exists engs, Forall2 (fun i l => sc_orb_eng h i = Ok l) (m_sc s) engs /\
    fresh_eng h s = Ok (concat engs) /\ blocks (sizes h s) engs (concat engs).
  Proof.
    intros H. destruct (exists_Forall2 (fun i l => sc_orb_eng h i = Ok l) (m_sc s)) as (engs & HF); [intros i Hi; apply (H i Hi)|].
    exists engs. split; [exact HF|]. apply fresh_eng_ok; [apply solid_sized; exact H|exact HF].
  Qed.
  Lemma pos_fresh s : solid s -> exists poss, Forall2 (fun i l => get_orb_pos (fst (h i)) = Ok l) (m_sc s) poss /\
    fresh_pos h s = Ok (concat poss) /\ blocks (sizes h s) poss (concat poss).
  Proof.
    intros H. destruct (exists_Forall2 (fun i l => get_orb_pos (fst (h i)) = Ok l) (m_sc s)) as (poss & HF); [intros i Hi; apply (H i Hi)|].
    exists poss. split; [exact HF|]. apply fresh_pos_ok; [apply solid_sized; exact H|exact HF|]. intros i l Hi. apply (H i Hi).
  Qed.
  Lemma sizes_nonneg s : solid s -> forall x, In x (sizes h s) -> 0 <= x.
  Proof. intros H x Hx. unfold sizes in Hx. apply in_map_iff in Hx. destruct Hx as (i & <- & Hi). rewrite <- (proj1 (H i Hi)). lia. Qed.
  Lemma blocks_len {A} s (ls : list (list A)) l : blocks (sizes h s) ls l -> Z.of_nat (length l) = n s.
  Proof. intros (_ & H & _). rewrite H. unfold m_num_orb. rewrite zsum_total. reflexivity. Qed.

  (** init_hop succeeds exactly when all components give their rows. *)
  Lemma rows_fresh s q : closed s -> fresh_rows conj h s = Ok q ->
    exists hs is, Forall2 (fun i q => get_hop conj (fst (h i)) = Ok q) (m_sc s) hs /\
      Forall2 (fun t q => inter_of h t = Ok q) (m_hop s) is.
  Proof.
    intros Hc H. unfold fresh_rows in H. binv H. binv H. apply mapM_inv in H0, H1.
    destruct (exists_Forall2 (fun i q => get_hop conj (fst (h i)) = Ok q) (m_sc s)) as (hs & Hhs).
    { intros i Hi. apply In_nth_error in Hi. destruct Hi as (k & Hk).
      destruct (Forall2_nth _ _ _ k (Z.of_nat k, i) H0) as (y & _ & Hy); [rewrite nth_error_enum, Hk; reflexivity|].
      cbn in Hy. binv Hy. eauto. }
    destruct (exists_Forall2 (fun t q => inter_of h t = Ok q) (m_hop s)) as (is & His).
    { intros t Hi. apply In_nth_error in Hi. destruct Hi as (k & Hk).
      destruct (Forall2_nth _ _ _ k t H1 Hk) as (y & _ & Hy). destruct t as [[b k'] x]. cbn in Hy. binv Hy. cbn [inter_of]. eauto. }
    eauto.
  Qed.

  Lemma rows_range s q : closed s -> solid s -> fresh_rows conj h s = Ok q -> inside r_i r_j (n s) (fst q).
  Proof.
    intros Hc Hs H. destruct (rows_fresh s q Hc H) as (hs & is & HF & HG).
    destruct (fresh_rows_ok conj h s hs is Hc HF HG) as (Bs & Is & dt & Hq & _ & HlB & HlI & HB & HI).
    rewrite Hq in H. injection H as <-. cbn [fst]. unfold inside.
    pose proof (Forall2_len _ _ _ HF) as L1. pose proof (Forall2_len _ _ _ HG) as L2.
    assert (Hn : n s = total (sizes h s)) by apply zsum_total.
    assert (Hbl : forall k i, nth_error (m_sc s) k = Some i -> 0 <= before (sizes h s) k /\
        before (sizes h s) k + num_orb_sc (s_os (fst (h i))) <= n s).
    { intros k i Hk. rewrite Hn. apply before_le; [apply sizes_nonneg; exact Hs|]. unfold sizes. rewrite nth_error_map, Hk. reflexivity. }
    apply Forall_app. split; apply Forall_concat; apply Forall_forall; intros R HR; apply In_nth_error in HR; destruct HR as (m & Hm).
    - assert (Hml : (m < length Bs)%nat) by (apply nth_error_Some; congruence).
      destruct (nth_error hs m) as [qm|] eqn:Hqm; [|apply nth_error_None in Hqm; lia].
      destruct (nth_error (m_sc s) m) as [i|] eqn:Hi; [|apply nth_error_None in Hi; lia].
      pose proof (Forall2_nth2 _ _ _ _ _ _ HF Hi Hqm) as Hg. cbn beta in Hg.
      destruct (Hs i (nth_error_In _ _ Hi)) as (Hlen & _ & (pos & Hpos) & Hpl). pose proof (get_hop_range conj _ _ _ Hpos Hg) as Hr. rewrite (Hpl _ Hpos) in Hr.
      specialize (HB m qm R Hqm Hm). specialize (Hbl m i Hi).
      apply (Forall2_Forall_r _ _ _ _ HB). intros r r' Hin (E1 & E2 & _). rewrite Forall_forall in Hr. specialize (Hr r Hin). unfold rowin in Hr. lia.
    - assert (Hml : (m < length Is)%nat) by (apply nth_error_Some; congruence).
      destruct (nth_error is m) as [qm|] eqn:Hqm; [|apply nth_error_None in Hqm; lia].
      destruct (nth_error (m_hop s) m) as [[[b k] x]|] eqn:Hi; [|apply nth_error_None in Hi; lia].
      pose proof (Forall2_nth2 _ _ _ _ _ _ HG Hi Hqm) as Hg. cbn [inter_of] in Hg.
      destruct (HI m b k x qm R Hi Hqm Hm) as (mb & mk & Fb & Fk & HR).
      destruct (Hc b k x (nth_error_In _ _ Hi)) as [Hb Hk].
      destruct (Hs b Hb) as (Hlb & _ & (pb & Hpb) & Hplb). destruct (Hs k Hk) as (Hlk & _ & (pk & Hpk) & Hplk).
      pose proof (inter_range _ _ _ _ _ _ _ Hpb Hpk Hg) as Hr. rewrite (Hplb _ Hpb), (Hplk _ Hpk) in Hr.
      pose proof (Hbl mb b (proj1 Fb)). pose proof (Hbl mk k (proj1 Fk)).
      apply (Forall2_Forall_r _ _ _ _ HR). intros r r' Hin (E1 & E2 & _). rewrite Forall_forall in Hr. specialize (Hr r Hin). cbn beta in Hr. lia.
  Qed.

  (** *** Sequences of calls *)
  Context (inj cis : T -> E) (inv : T -> T) (cabs : E -> T) (leb : T -> T -> bool) (mag half : T).
  Notation mstep := (mstep conj inj cis inv cabs leb mag half h).
  Notation mrun := (mrun conj inj cis inv cabs leb mag half h).

  Definition fit (s : sample) : Prop :=
    closed s /\ solid s /\
    (forall e, m_eng s = Some e -> Z.of_nat (length e) = n s) /\
    (forall p, m_pos s = Some p -> Z.of_nat (length p) = n s /\ fresh_pos h s = Ok p) /\
    (forall q, m_rows s = Some q -> inside r_i r_j (n s) (fst q)).

  Lemma fit_with_eng s e : fit s -> Z.of_nat (length e) = n s -> fit (with_eng s (Some e)).
  Proof. intros (H1 & H2 & H3 & H4 & H5) He. split; [exact H1|]. split; [exact H2|]. split; [intros x Hx; injection Hx as <-; exact He|]. split; [exact H4|exact H5]. Qed.
  Lemma fit_with_pos s p : fit s -> Z.of_nat (length p) = n s -> fresh_pos h s = Ok p -> fit (with_pos s (Some p)).
  Proof. intros (H1 & H2 & H3 & H4 & H5) He Hp. split; [exact H1|]. split; [exact H2|]. split; [exact H3|]. split; [intros x Hx; injection Hx as <-; split; [exact He|exact Hp]|exact H5]. Qed.
  Lemma fit_with_rows s q : fit s -> inside r_i r_j (n s) (fst q) -> fit (with_rows s (Some q)).
  Proof. intros (H1 & H2 & H3 & H4 & H5) He. split; [exact H1|]. split; [exact H2|]. split; [exact H3|]. split; [exact H4|intros x Hx; injection Hx as <-; exact He]. Qed.
  Lemma fit_with_rescale s f : fit s -> fit (with_rescale s f).
  Proof. intros H. exact H. Qed.

  Lemma fit_make args s : make_sample args = Ok s -> solid s -> fit s.
  Proof.
    intros H Hs. destruct (make_sample_ok args s H) as (_ & _ & _ & H1 & H2 & H3 & _ & Hc). split; [exact Hc|]. split; [exact Hs|]. rewrite H1, H2, H3. split; [|split]; discriminate.
  Qed.

  Lemma fit_eng f s : fit s -> fit (fst (init_orb_eng h f s)) /\ snd (init_orb_eng h f s) = Ok tt /\ exists e, m_eng (fst (init_orb_eng h f s)) = Some e.
  Proof.
    intros H. unfold init_orb_eng. destruct (eng_fresh s (proj1 (proj2 H))) as (engs & _ & He & Hb). rewrite He.
    pose proof (fit_with_eng s _ H (blocks_len s _ _ Hb)) as H'.
    destruct f; [|destruct (m_eng s) as [e|] eqn:Hm]; cbn [fst snd]; (split; [assumption|split; [reflexivity|]]); eauto; cbn; eauto.
  Qed.
  Lemma fit_pos f s : fit s -> fit (fst (init_orb_pos h f s)) /\ snd (init_orb_pos h f s) = Ok tt /\ exists e, m_pos (fst (init_orb_pos h f s)) = Some e.
  Proof.
    intros H. unfold init_orb_pos. destruct (pos_fresh s (proj1 (proj2 H))) as (poss & _ & He & Hb). rewrite He.
    pose proof (fit_with_pos s _ H (blocks_len s _ _ Hb) He) as H'.
    destruct f; [|destruct (m_pos s) as [e|] eqn:Hm]; cbn [fst snd]; (split; [assumption|split; [reflexivity|]]); eauto; cbn; eauto.
  Qed.
  Lemma fit_hops f s : fit s -> fit (fst (init_hops conj h f s)) /\ (snd (init_hops conj h f s) = Ok tt -> exists q, m_rows (fst (init_hops conj h f s)) = Some q).
  Proof.
    intros H. unfold init_hops. destruct (fresh_rows conj h s) as [q|x] eqn:Hq.
    - pose proof (fit_with_rescale _ s1 (fit_with_rows s q H (rows_range s q (proj1 H) (proj1 (proj2 H)) Hq))) as H'.
      destruct f; [|destruct (m_rows s) as [e|] eqn:Hm]; cbn [fst snd]; (split; [assumption|]); eauto; cbn; eauto.
    - destruct f; [|destruct (m_rows s) as [e|] eqn:Hm]; cbn [fst snd]; (split; [assumption|]); eauto; discriminate.
  Qed.
  Lemma fit_seq2 f g s : (fit (fst (f s))) -> (forall s', s' = fst (f s) -> fit s' -> fit (fst (g s'))) -> fit (fst (seq2 f g s)).
  Proof. unfold seq2. destruct (f s) as [s' [u|x]]; cbn [fst]; intros H1 H2; [apply H2; [reflexivity|exact H1]|exact H1]. Qed.
  Lemma fit_when {A} (o : option A) f s : fit s -> fit (fst (f s)) -> fit (fst (when o f s)).
  Proof. destruct o; auto. Qed.
  Lemma inside_map m (g : row -> row) rows : (forall r, r_i (g r) = r_i r /\ r_j (g r) = r_j r) -> inside r_i r_j m rows -> inside r_i r_j m (map g rows).
  Proof. intros Hg H. unfold inside in *. rewrite Forall_forall in *. intros r' Hr. apply in_map_iff in Hr. destruct Hr as (r & <- & Hr). destruct (Hg r) as [-> ->]. exact (H r Hr). Qed.

  Lemma mag_rows pos b g rows rows' : set_mag_field cis mag half pos b g rows = Ok rows' ->
    Forall2 (fun r r' => exists x, mag_phase mag half pos b g r = Ok x /\ r' = set_v r (smul (r_v r) (cis x))) rows rows'.
  Proof.
    intros H. apply mapM_inv in H. induction H as [|r r' rows rows' H HF IH]; constructor; [|exact IH].
    binv H. injection H as <-. eauto.
  Qed.
  Lemma inside_mag m pos b g rows rows' : set_mag_field cis mag half pos b g rows = Ok rows' -> inside r_i r_j m rows -> inside r_i r_j m rows'.
  Proof.
    intros H Hi. apply mag_rows in H. unfold inside in *. rewrite Forall_forall in Hi. apply (Forall2_Forall_r _ _ _ _ H).
    intros r r' Hin (x & _ & ->). exact (Hi r Hin).
  Qed.
  Lemma fit_step s o : fit s -> fit (fst (mstep s o)).
  Proof.
    intros H. destruct o as [f|f|f| |f|b g|rc k]; cbn [M_sample.mstep].
    - apply fit_eng. exact H.
    - apply fit_pos. exact H.
    - apply fit_hops. exact H.
    - unfold reset_array. apply fit_seq2; [apply fit_when; [exact H|apply fit_eng; exact H]|]. intros s1 _ H1.
      apply fit_seq2; [apply fit_when; [exact H1|apply fit_pos; exact H1]|]. intros s2 _ H2. apply fit_when; [exact H2|apply fit_hops; exact H2].
    - unfold rescale_ham. apply fit_seq2; [apply fit_eng; exact H|]. intros s1 _ H1. apply fit_seq2; [apply fit_hops; exact H1|]. intros s2 _ H2.
      unfold do_rescale. destruct (m_eng s2) as [e|] eqn:He; [|exact H2]. destruct (m_rows s2) as [[rows dt]|] eqn:Hr; [|exact H2].
      destruct (match f with Some _ => _ | None => _ end) as [c|]; [|exact H2]. cbn [fst].
      apply fit_with_rescale. apply fit_with_rows; [apply fit_with_eng; [exact H2|rewrite map_length; apply H2; exact He]|].
      cbn [fst]. apply inside_map; [intros r; split; reflexivity|]. apply (proj2 (proj2 (proj2 (proj2 H2))) _ Hr).
    - unfold set_magnetic_field. apply fit_seq2; [apply fit_pos; exact H|]. intros s1 _ H1. apply fit_seq2; [apply fit_hops; exact H1|]. intros s2 _ H2.
      unfold do_mag. destruct (negb _); [exact H2|]. destruct (m_rows s2) as [[rows dt]|] eqn:Hr; [|exact H2]. cbn [got bind]. unfold ints. cbn [snd fst].
      destruct dt; [|exact H2]. cbn [bind]. destruct (m_pos s2) as [pos|]; [|exact H2]. cbn [got bind].
      destruct (set_mag_field cis mag half pos b g rows) as [rows'|] eqn:Hm; [|exact H2]. cbn [fst]. apply fit_with_rows; [exact H2|]. cbn [fst].
      apply (inside_mag _ _ _ _ _ _ Hm). apply (proj2 (proj2 (proj2 (proj2 H2))) _ Hr).
    - unfold set_k_point. apply fit_seq2; [apply fit_hops; exact H|]. intros s1 _ H1. unfold do_k.
      destruct (m_rows s1) as [[rows dt]|] eqn:Hr; [|exact H1]. cbn [fst]. apply fit_with_rows; [exact H1|]. cbn [fst].
      apply inside_map; [intros r; split; reflexivity|]. apply (proj2 (proj2 (proj2 (proj2 H1))) _ Hr).
  Qed.
  Lemma fit_run os : forall s, fit s -> fit (mrun s os).
  Proof. induction os as [|o os IH]; intros s H; [exact H|]. cbn [M_sample.mrun fold_left]. apply IH. apply fit_step. exact H. Qed.
End Fit.
