(** Proofs about synchronised arrays. *)
From Verif Require Import Prelude M_hop M_pc M_index M_sync S_sync L_base L_hop L_index P_pc.

Section Sync.
  Context {E X W L : Type} (conj : E -> E) (zero : X).
  Context (hash_orbs : list (orbital X W L) -> Z) (hash_hops : list (rn3 * pair2 * E) -> Z).
  Notation crun := (crun conj zero hash_orbs hash_hops).
  Notation cstep := (cstep conj zero hash_orbs hash_hops).
  Notation cached0 := (cached0 hash_orbs hash_hops).

  (** Contents of the cell in the course of a history. *)
  Definition orbs_at (os : list (cop E X W L)) (k : nat) := orbs (c_pc (crun cached0 (firstn k os))).
  Definition terms_at (os : list (cop E X W L)) (k : nat) := flatten (hop (c_pc (crun cached0 (firstn k os)))).

  Lemma crun_snoc s os o : crun s (os ++ [o]) = cstep (crun s os) o.
  Proof. unfold M_sync.crun. rewrite fold_left_app. reflexivity. Qed.

  (** The arrays are those of some earlier content with the recorded hash. *)
  Definition trace_inv (os : list (cop E X W L)) : Prop :=
    let s := crun cached0 os in
    (exists k, c_horb s = hash_orbs (orbs_at os k) /\ c_orb s = orb_rows (orbs_at os k)) /\
    (exists k, c_hhop s = hash_hops (terms_at os k) /\ c_hop s = terms_at os k).

  Lemma firstn_snoc (os : list (cop E X W L)) o k : (k <= length os)%nat -> firstn k (os ++ [o]) = firstn k os.
  Proof. intros H. rewrite firstn_app. replace (k - length os)%nat with 0%nat by lia. apply app_nil_r. Qed.

  Lemma at_snoc os o k : exists k', orbs_at (os ++ [o]) k' = orbs_at os k.
  Proof.
    destruct (Nat.le_gt_cases k (length os)) as [H|H].
    - exists k. unfold orbs_at. rewrite firstn_snoc by assumption. reflexivity.
    - exists (length os). unfold orbs_at. rewrite firstn_snoc by lia. rewrite !firstn_all2 by lia. reflexivity.
  Qed.
  Lemma terms_snoc os o k : exists k', terms_at (os ++ [o]) k' = terms_at os k.
  Proof.
    destruct (Nat.le_gt_cases k (length os)) as [H|H].
    - exists k. unfold terms_at. rewrite firstn_snoc by assumption. reflexivity.
    - exists (length os). unfold terms_at. rewrite firstn_snoc by lia. rewrite !firstn_all2 by lia. reflexivity.
  Qed.
  Lemma at_end os : orbs_at os (length os) = orbs (c_pc (crun cached0 os)).
  Proof. unfold orbs_at. rewrite firstn_all. reflexivity. Qed.
  Lemma terms_end os : terms_at os (length os) = flatten (hop (c_pc (crun cached0 os))).
  Proof. unfold terms_at. rewrite firstn_all. reflexivity. Qed.

  Lemma sync_orb_inv f (s : cached E X W L) (P : list (orbital X W L) -> Prop) :
    P (orbs (c_pc s)) -> (exists l, P l /\ c_horb s = hash_orbs l /\ c_orb s = orb_rows l) ->
    exists l, P l /\ c_horb (sync_orb hash_orbs f s) = hash_orbs l /\ c_orb (sync_orb hash_orbs f s) = orb_rows l.
  Proof.
    intros Hc (l & Hl & H1 & H2). unfold sync_orb. cbn [c_horb c_orb].
    destruct (c_horb s =? hash_orbs (orbs (c_pc s))) eqn:He; cbn [negb].
    - apply Z.eqb_eq in He. rewrite orb_false_r. destruct f; [exists (orbs (c_pc s)); auto|]. exists l; auto.
    - rewrite orb_true_r. exists (orbs (c_pc s)); auto.
  Qed.

  Lemma sync_hop_inv f (s : cached E X W L) (P : list (rn3 * pair2 * E) -> Prop) :
    P (flatten (hop (c_pc s))) -> (exists l, P l /\ c_hhop s = hash_hops l /\ c_hop s = l) ->
    exists l, P l /\ c_hhop (sync_hop hash_hops f s) = hash_hops l /\ c_hop (sync_hop hash_hops f s) = l.
  Proof.
    intros Hc (l & Hl & H1 & H2). unfold sync_hop. cbn [c_hhop c_hop set_hop hop]. rewrite flatten_purge.
    destruct (c_hhop s =? hash_hops (flatten (hop (c_pc s)))) eqn:He; cbn [negb].
    - apply Z.eqb_eq in He. rewrite orb_false_r. destruct f; [exists (flatten (hop (c_pc s))); auto|]. exists l; auto.
    - rewrite orb_true_r. exists (flatten (hop (c_pc s))); auto.
  Qed.

  Lemma trace_ok os : trace_inv os.
  Proof.
    induction os as [|o os IH] using rev_ind.
    - split; exists 0%nat; cbn; auto.
    - unfold trace_inv. destruct IH as [(k1 & A1 & A2) (k2 & B1 & B2)]. cbv zeta in *.
      set (s := crun cached0 os) in *.
      destruct (at_snoc os o k1) as [k1' E1]. destruct (terms_snoc os o k2) as [k2' E2].
      destruct (at_snoc os o (length os)) as [e1 F1]. rewrite at_end in F1. fold s in F1.
      destruct (terms_snoc os o (length os)) as [e2 F2]. rewrite terms_end in F2. fold s in F2.
      rewrite crun_snoc. fold s.
      assert (Horb : forall f, exists k, c_horb (sync_orb hash_orbs f s) = hash_orbs (orbs_at (os ++ [o]) k) /\
                                         c_orb (sync_orb hash_orbs f s) = orb_rows (orbs_at (os ++ [o]) k)).
      { intros f. destruct (sync_orb_inv f s (fun l => exists k, orbs_at (os ++ [o]) k = l)) as (l & [k <-] & H1 & H2).
        - exists e1. assumption.
        - exists (orbs_at os k1). split; [exists k1'; assumption|auto].
        - exists k. auto. }
      assert (Hhop : forall f s1, c_hhop s1 = c_hhop s -> c_hop s1 = c_hop s -> c_pc s1 = c_pc s ->
                exists k, c_hhop (sync_hop hash_hops f s1) = hash_hops (terms_at (os ++ [o]) k) /\
                          c_hop (sync_hop hash_hops f s1) = terms_at (os ++ [o]) k).
      { intros f s1 Q1 Q2 Q3. destruct (sync_hop_inv f s1 (fun l => exists k, terms_at (os ++ [o]) k = l)) as (l & [k <-] & H1 & H2).
        - exists e2. rewrite Q3. assumption.
        - exists (terms_at os k2). split; [exists k2'; assumption|]. rewrite Q1, Q2. auto.
        - exists k. auto. }
      destruct o as [o|f|f|f]; cbn [M_sync.cstep].
      + cbn [c_horb c_orb c_hhop c_hop]. split; [exists k1'; rewrite E1; auto|exists k2'; rewrite E2; auto].
      + split; [apply Horb|]. exists k2'. rewrite E2. auto.
      + split; [|apply Hhop; reflexivity]. exists k1'. rewrite E1. auto.
      + split; [apply Horb|apply Hhop; reflexivity].
  Qed.

  (** After sync_array: fresh unless the hash of the current content is that of
      an earlier, different content. *)
  Lemma sync_fresh os f :
    let s := crun cached0 os in
    let s' := crun cached0 (os ++ [CSync f]) in
    (f = true \/ forall k, hash_orbs (orbs_at os k) = hash_orbs (orbs (c_pc s)) -> orb_rows (orbs_at os k) = orb_rows (orbs (c_pc s))) ->
    (f = true \/ forall k, hash_hops (terms_at os k) = hash_hops (flatten (hop (c_pc s))) -> terms_at os k = flatten (hop (c_pc s))) ->
    orbs (c_pc s') = orbs (c_pc s) /\ flatten (hop (c_pc s')) = flatten (hop (c_pc s)) /\
    c_orb s' = orb_rows (orbs (c_pc s')) /\ c_hop s' = flatten (hop (c_pc s')).
  Proof.
    intros s s' Ho Hh. destruct (trace_ok os) as [(k1 & A1 & A2) (k2 & B1 & B2)]. cbv zeta in *. fold s in A1, A2, B1, B2.
    assert (Hs' : s' = sync_hop hash_hops f (sync_orb hash_orbs f s)) by (unfold s'; rewrite crun_snoc; reflexivity).
    rewrite Hs'. unfold sync_hop, sync_orb. cbn [c_pc c_orb c_hop c_hhop set_hop orbs hop]. rewrite flatten_purge.
    split; [reflexivity|]. split; [reflexivity|]. split.
    - destruct (c_horb s =? hash_orbs (orbs (c_pc s))) eqn:He; cbn [negb]; [|rewrite orb_true_r; reflexivity].
      destruct Ho as [->|Ho]; [reflexivity|]. destruct f; [reflexivity|]. cbn [orb]. rewrite A2. apply Ho.
      apply Z.eqb_eq in He. congruence.
    - destruct (c_hhop s =? hash_hops (flatten (hop (c_pc s)))) eqn:He; cbn [negb]; [|rewrite orb_true_r; reflexivity].
      destruct Hh as [->|Hh]; [reflexivity|]. destruct f; [reflexivity|]. cbn [orb]. rewrite B2. apply Hh.
      apply Z.eqb_eq in He. congruence.
  Qed.
End Sync.

Section SyncSC.
  Context {P : Type} (n_orb n_hop : P -> Z) (hash_pc : P -> Z) (hash_vac : list id4 -> Z).
  Notation kstep := (kstep n_orb n_hop hash_pc hash_vac).
  Notation krun := (krun n_orb n_hop hash_pc hash_vac).
  Notation cset0 := (cset0 n_orb hash_pc hash_vac).

  (** The arrays fit the last synchronised primitive cell and vacancies. *)
  Definition kinv (Q : P -> list id4 -> Prop) (s : cset P) : Prop :=
    exists p vs, Q p vs /\ k_hpc s = hash_pc p /\ k_hvac s = hash_vac vs /\
      k_vac_id_sc s = o_vac_id_sc {| o_dim := k_dim s; o_n := n_orb p; o_vacs := vs |} /\
      k_orb_id_pc s = o_orb_id_pc {| o_dim := k_dim s; o_n := n_orb p; o_vacs := vs |}.

  Lemma check_all_err o vs x : check_all o vs = Err x -> x = IDPCIndexError \/ x = IDPCLenError.
  Proof.
    induction vs as [|[[[a b] c] i] vs IH]; cbn [check_all]; [discriminate|].
    unfold check_id_pc. destruct (o_dim o) as [[na nb] nc].
    destruct (negb _); cbn [bind]; [intros H; injection H as <-; auto|].
    destruct (negb _); cbn [bind]; [intros H; injection H as <-; auto|].
    destruct (negb _); cbn [bind]; [intros H; injection H as <-; auto|].
    destruct (negb _); cbn [bind]; [intros H; injection H as <-; auto|]. apply IH.
  Qed.

  Lemma ksync_inv Q f s : kinv Q s -> Q (k_pc s) (k_vacs s) ->
    (forall x, snd (kstep s (KSync f)) = Err x -> x = PCOrbEmptyError \/ x = PCHopEmptyError) ->
    kinv Q (fst (ksync n_orb n_hop hash_pc hash_vac f s)).
  Proof.
    intros (p & vs & A0 & A1 & A2 & A3 & A4) HQ Hok. cbn [M_sync.kstep] in Hok.
    unfold ksync in *. destruct (n_orb (k_pc s) =? 0); [exists p, vs; auto|].
    destruct (n_hop (k_pc s) =? 0); [exists p, vs; auto|].
    set (upc := negb (k_hpc s =? hash_pc (k_pc s))) in *. set (uvac := negb (k_hvac s =? hash_vac (k_vacs s))) in *.
    assert (Hpc : (if upc then hash_pc (k_pc s) else k_hpc s) = hash_pc (k_pc s))
      by (unfold upc; destruct (k_hpc s =? hash_pc (k_pc s)) eqn:He; cbn [negb]; [apply Z.eqb_eq in He; assumption|reflexivity]).
    assert (Hvc : (if uvac then hash_vac (k_vacs s) else k_hvac s) = hash_vac (k_vacs s))
      by (unfold uvac; destruct (k_hvac s =? hash_vac (k_vacs s)) eqn:He; cbn [negb]; [apply Z.eqb_eq in He; assumption|reflexivity]).
    destruct (f || upc || uvac) eqn:Hu.
    - assert (Hvid : forall r, (match k_vacs s with
               | [] => Ok []
               | vs0 => bind (if upc then check_all (k_oset n_orb s) vs0 else Ok tt)
                            (fun _ => Ok (o_vac_id_sc (k_oset n_orb s)))
               end) = Ok r -> r = o_vac_id_sc (k_oset n_orb s)).
      { intros r. destruct (k_vacs s) as [|v l] eqn:Hv.
        - intros H. injection H as <-. unfold o_vac_id_sc, k_oset. cbn [o_vacs]. rewrite Hv. reflexivity.
        - destruct (if upc then _ else _); cbn [bind]; [|discriminate]. intros H. injection H as <-. reflexivity. }
      destruct (match k_vacs s with [] => _ | _ => _ end) as [vid|x] eqn:Hm.
      + cbn [fst snd k_hpc k_hvac k_vac_id_sc k_orb_id_pc k_dim k_pc k_vacs]. rewrite Hpc, Hvc. specialize (Hvid vid eq_refl). subst vid.
        exists (k_pc s), (k_vacs s). repeat split. exact HQ.
      + exfalso. cbn [snd] in Hok. specialize (Hok x eq_refl).
        destruct (k_vacs s) as [|v l]; [discriminate|]. destruct upc; cbn [bind] in Hm; [|discriminate].
        destruct (check_all (k_oset n_orb s) (v :: l)) as [u|y] eqn:Hc; cbn [bind] in Hm; [discriminate|]. injection Hm as <-.
        apply check_all_err in Hc. destruct Hc as [-> | ->], Hok; discriminate.
    - apply orb_false_iff in Hu. destruct Hu as [Hu Hu3]. apply orb_false_iff in Hu. destruct Hu as [Hu1 Hu2].
      cbn [fst snd k_hpc k_hvac k_vac_id_sc k_orb_id_pc k_dim k_pc k_vacs]. rewrite Hu2, Hu3 in *.
      exists p, vs. auto.
  Qed.

  Lemma ksync_fresh Q f s : kinv Q s ->
    (forall p vs, Q p vs -> hash_pc p = hash_pc (k_pc s) -> n_orb p = n_orb (k_pc s)) ->
    (forall p vs, Q p vs -> hash_vac vs = hash_vac (k_vacs s) -> vs = k_vacs s) ->
    snd (kstep s (KSync f)) = Ok tt ->
    let s' := fst (kstep s (KSync f)) in
    k_vac_id_sc s' = o_vac_id_sc (k_oset n_orb s') /\ k_orb_id_pc s' = o_orb_id_pc (k_oset n_orb s').
  Proof.
    intros (p & vs & A0 & A1 & A2 & A3 & A4) Hn Hv. cbn [M_sync.kstep].
    unfold ksync. destruct (n_orb (k_pc s) =? 0); [discriminate|].
    destruct (n_hop (k_pc s) =? 0); [discriminate|].
    destruct (f || _ || _) eqn:Hu.
    - destruct (k_vacs s) as [|v l] eqn:Hvs.
      + intros _. cbn [fst]. unfold o_vac_id_sc, o_orb_id_pc, k_oset. cbn [k_dim k_pc k_vacs k_vac_id_sc k_orb_id_pc o_dim o_n o_vacs].
        split; reflexivity.
      + destruct (if negb _ then _ else _); cbn [bind]; [|discriminate]. intros _. cbn [fst].
        unfold o_vac_id_sc, o_orb_id_pc, k_oset. cbn [k_dim k_pc k_vacs k_vac_id_sc k_orb_id_pc o_dim o_n o_vacs]. rewrite Hvs. split; reflexivity.
    - intros _. apply orb_false_iff in Hu. destruct Hu as [Hu Hu3]. apply orb_false_iff in Hu. destruct Hu as [Hu1 Hu2].
      apply negb_false_iff, Z.eqb_eq in Hu2, Hu3.
      cbn [fst]. unfold k_oset. cbn [k_dim k_pc k_vacs k_vac_id_sc k_orb_id_pc].
      assert (H : n_orb p = n_orb (k_pc s)) by (apply (Hn p vs A0); congruence).
      assert (vs = k_vacs s) by (apply (Hv p vs A0); congruence). subst vs. rewrite A3, A4. rewrite H. auto.
  Qed.

  Lemma kinv_imp (Q Q' : P -> list id4 -> Prop) s : (forall p vs, Q p vs -> Q' p vs) -> kinv Q s -> kinv Q' s.
  Proof. intros H (p & vs & A0 & A). exists p, vs. auto. Qed.

  Definition seen (s0 : cset P) (os : list (kop P)) (p : P) (vs : list id4) : Prop :=
    exists k, p = k_pc (krun s0 (firstn k os)) /\ vs = k_vacs (krun s0 (firstn k os)).

  Lemma kfirstn_snoc (os : list (kop P)) o k : (k <= length os)%nat -> firstn k (os ++ [o]) = firstn k os.
  Proof. intros H. rewrite firstn_app. replace (k - length os)%nat with 0%nat by lia. apply app_nil_r. Qed.

  Lemma seen_snoc s0 os o p vs : seen s0 os p vs -> seen s0 (os ++ [o]) p vs.
  Proof.
    intros (k & H1 & H2). destruct (Nat.le_gt_cases k (length os)) as [H|H].
    - exists k. rewrite kfirstn_snoc by assumption. auto.
    - exists (length os). rewrite kfirstn_snoc by lia. rewrite firstn_all2 in H1, H2 by lia. rewrite firstn_all. auto.
  Qed.

  Lemma krun_inv s0 os : kinv (seen s0 []) s0 -> syncs_ok n_orb n_hop hash_pc hash_vac s0 os -> kinv (seen s0 os) (krun s0 os).
  Proof.
    intros H0. induction os as [|o os IH] using rev_ind; intros Hok; [exact H0|].
    assert (IH' : kinv (seen s0 (os ++ [o])) (krun s0 os)).
    { apply (kinv_imp (seen s0 os)); [intros p vs; apply seen_snoc|]. apply IH. intros k f x Hk Hx.
      assert (Hl : (k < length os)%nat) by (apply nth_error_Some; congruence).
      apply (Hok k f x); [rewrite nth_error_app1 by assumption; assumption|]. rewrite kfirstn_snoc by lia. assumption. }
    replace (krun s0 (os ++ [o])) with (fst (kstep (krun s0 os) o)) by (unfold M_sync.krun; rewrite fold_left_app; reflexivity).
    destruct o as [p|[vs|vs]|f]; cbn [M_sync.kstep].
    - exact IH'.
    - destruct (add_vacancies (k_oset n_orb (krun s0 os)) vs) as [o' r]. exact IH'.
    - destruct (set_vacancies (k_oset n_orb (krun s0 os)) vs) as [o' r]. exact IH'.
    - apply ksync_inv; [exact IH'| |].
      + apply seen_snoc. exists (length os). rewrite firstn_all. auto.
      + intros x Hx. apply (Hok (length os) f x).
        * rewrite nth_error_app2 by lia. rewrite Nat.sub_diag. reflexivity.
        * rewrite kfirstn_snoc by lia. rewrite firstn_all. exact Hx.
  Qed.

  Lemma sc_fresh p dim os f :
    let at_ k := krun (cset0 p dim) (firstn k os) in
    let s := krun (cset0 p dim) os in
    syncs_ok n_orb n_hop hash_pc hash_vac (cset0 p dim) os ->
    (forall k, hash_pc (k_pc (at_ k)) = hash_pc (k_pc s) -> n_orb (k_pc (at_ k)) = n_orb (k_pc s)) ->
    (forall k, hash_vac (k_vacs (at_ k)) = hash_vac (k_vacs s) -> k_vacs (at_ k) = k_vacs s) ->
    snd (kstep s (KSync f)) = Ok tt ->
    let s' := fst (kstep s (KSync f)) in
    k_pc s' = k_pc s /\ k_vacs s' = k_vacs s /\
    k_vac_id_sc s' = o_vac_id_sc (k_oset n_orb s') /\ k_orb_id_pc s' = o_orb_id_pc (k_oset n_orb s').
  Proof.
    intros at_ s Hok Hn Hv Hr s'.
    assert (Hi : kinv (seen (cset0 p dim) os) s).
    { apply krun_inv; [|assumption]. exists p, []. split; [exists 0%nat; split; reflexivity|]. repeat split. }
    assert (Hk : k_pc s' = k_pc s /\ k_vacs s' = k_vacs s).
    { unfold s'. cbn [M_sync.kstep]. unfold ksync. destruct (_ =? 0); [auto|]. destruct (_ =? 0); [auto|].
      destruct (_ || _); [|auto]. destruct (match k_vacs s with [] => _ | _ => _ end); auto. }
    split; [apply Hk|]. split; [apply Hk|].
    apply (ksync_fresh (seen (cset0 p dim) os)); [assumption| | |assumption].
    - intros q vs (k & -> & ->). apply Hn.
    - intros q vs (k & -> & ->). apply Hv.
  Qed.
End SyncSC.

Section Stale.
  Context (ho : list (orbital Z Z Z) -> Z) (hh : list (rn3 * pair2 * (Z * Z)) -> Z).
  Lemma sync_same (s : cached (Z * Z) Z Z Z) :
    c_horb s = ho (orbs (c_pc s)) -> c_hhop s = hh (flatten (hop (c_pc s))) ->
    cstep cj 0 ho hh s (CSync false) =
    {| c_pc := set_hop (c_pc s) (purge (hop (c_pc s))); c_horb := c_horb s; c_hhop := c_hhop s; c_orb := c_orb s; c_hop := c_hop s |}.
  Proof.
    intros H1 H2. cbn [cstep]. unfold sync_hop, sync_orb. cbn [c_pc c_orb c_hop c_hhop c_horb set_hop orbs hop]. rewrite flatten_purge.
    rewrite H1, H2, !Z.eqb_refl. reflexivity.
  Qed.
  Lemma sync_new (s : cached (Z * Z) Z Z Z) :
    c_horb s <> ho (orbs (c_pc s)) -> c_hhop s <> hh (flatten (hop (c_pc s))) ->
    cstep cj 0 ho hh s (CSync false) =
    {| c_pc := set_hop (c_pc s) (purge (hop (c_pc s))); c_horb := ho (orbs (c_pc s)); c_hhop := hh (flatten (hop (c_pc s)));
       c_orb := orb_rows (orbs (c_pc s)); c_hop := flatten (hop (c_pc s)) |}.
  Proof.
    intros H1 H2. apply Z.eqb_neq in H1, H2.
    cbn [cstep]. unfold sync_hop, sync_orb. cbn [c_pc c_orb c_hop c_hhop c_horb set_hop orbs hop]. rewrite flatten_purge.
    rewrite H1, H2. reflexivity.
  Qed.

  Definition stale1 : list (cop (Z * Z) Z Z Z) :=
    [CEdit (OpAddOrb [0; 0] (-1) 0); CEdit (OpAddOrb [1; 0] 0 0);
     CEdit (OpAddHop [1; 0] 0 1 (-1, 0)); CEdit (OpAddHop [1; -1] 0 1 (5, 0))].
  Definition stale2 : list (cop (Z * Z) Z Z Z) :=
    [CEdit (OpSetOrb 0 None (Some (-2)) None); CEdit (OpAddHop [1; 0] 0 1 (-2, 0));
     CEdit (OpRemoveHop [1; -1] 0 1); CEdit (OpAddHop [1; -2] 0 1 (5, 0))].
  Let o1 : list (orbital Z Z Z) := [{| position := (0, 0, 0); energy := -1; label := 0 |}; {| position := (1, 0, 0); energy := 0; label := 0 |}].
  Let o2 : list (orbital Z Z Z) := [{| position := (0, 0, 0); energy := -2; label := 0 |}; {| position := (1, 0, 0); energy := 0; label := 0 |}].
  Let t1 : list (rn3 * pair2 * (Z * Z)) := [((1, 0, 0), (0, 1), (-1, 0)); ((1, -1, 0), (0, 1), (5, 0))].
  Let t2 : list (rn3 * pair2 * (Z * Z)) := [((1, 0, 0), (0, 1), (-2, 0)); ((1, -2, 0), (0, 1), (5, 0))].

  Lemma stale_gen : ho [] <> ho o1 -> ho o1 = ho o2 -> hh [] <> hh t1 -> hh t1 = hh t2 ->
    let s := crun cj 0 ho hh (cached0 ho hh) ((stale1 ++ [CSync false] ++ stale2) ++ [CSync false]) in
    orbs (c_pc s) = o2 /\ c_orb s = orb_rows o1 /\ flatten (hop (c_pc s)) = t2 /\ c_hop s = t1.
  Proof.
    intros H1 H2 H3 H4. cbv zeta. unfold crun. rewrite !fold_left_app. cbn [fold_left].
    set (s1 := fold_left (cstep cj 0 ho hh) stale1 (cached0 ho hh)).
    assert (A1 : c_horb s1 = ho []) by reflexivity. assert (A2 : c_hhop s1 = hh []) by reflexivity.
    assert (A3 : orbs (c_pc s1) = o1) by reflexivity. assert (A4 : flatten (hop (c_pc s1)) = t1) by reflexivity.
    assert (Hs : c_pc s1 = c_pc s1) by reflexivity.
    rewrite (sync_new s1) by (rewrite ?A1, ?A2, ?A3, ?A4; assumption). rewrite A3, A4.
    set (s2 := {| c_pc := _ |}). set (s3 := fold_left _ stale2 s2).
    assert (B1 : c_horb s3 = ho o1) by reflexivity. assert (B2 : c_hhop s3 = hh t1) by reflexivity.
    assert (B3 : orbs (c_pc s3) = o2) by reflexivity. assert (B4 : flatten (hop (c_pc s3)) = t2) by reflexivity.
    rewrite (sync_same s3) by (rewrite ?B1, ?B2, ?B3, ?B4; assumption).
    cbn [c_pc c_orb c_hop set_hop orbs hop]. rewrite flatten_purge.
    split; [exact B3|]. split; [reflexivity|]. split; [exact B4|reflexivity].
  Qed.
End Stale.

Lemma stale_history : forall (comb : list Z -> Z) (hash_label : Z -> Z),
  comb [] <> comb [comb [comb [0; 0; 0]; -2; hash_label 0]; comb [comb [1; 0; 0]; 0; hash_label 0]] ->
  comb [] <> comb [comb [1; 0; 0; 0; 1; -2]; comb [1; -2; 0; 0; 1; 5]] ->
  exists os : list (cop (Z * Z) Z Z Z),
  let ho := py_hash_orbs comb hash_label in
  let hh := py_hash_hops comb in
  let s := crun cj 0 ho hh (cached0 ho hh) (os ++ [CSync false]) in
  map energy (orbs (c_pc s)) = [-2; 0] /\ map snd (c_orb s) = [-1; 0] /\
  flatten (hop (c_pc s)) = [((1, 0, 0), (0, 1), (-2, 0)); ((1, -2, 0), (0, 1), (5, 0))] /\
  c_hop s = [((1, 0, 0), (0, 1), (-1, 0)); ((1, -1, 0), (0, 1), (5, 0))].
Proof.
  intros comb hl H1 H2. exists (stale1 ++ [CSync false] ++ stale2). cbv zeta.
  destruct (stale_gen (py_hash_orbs comb hl) (py_hash_hops comb)) as (A & B & C & D).
  - exact H1.
  - reflexivity.
  - exact H2.
  - reflexivity.
  - rewrite A, B, C, D. repeat split.
Qed.

Lemma sc_stale : forall (hash_pc : Z * Z -> Z) (hash_vac : list id4 -> Z),
  hash_pc (1, 1) <> hash_pc (2, 1) -> hash_vac [] <> hash_vac [(0, 0, 0, 1)] ->
  let k := kstep fst snd hash_pc hash_vac in
  let s := krun fst snd hash_pc hash_vac (cset0 fst hash_pc hash_vac (2, 1) (2, 1, 1))
                [KVac (VAdd [[0; 0; 0; 1]]); KSync false; KPc (1, 1)] in
  snd (k s (KSync false)) = Err IDPCIndexError /\
  let s1 := fst (k s (KSync false)) in
  snd (k s1 (KSync false)) = Ok tt /\
  fst (k_pc (fst (k s1 (KSync false)))) = 1 /\
  k_orb_id_pc (fst (k s1 (KSync false))) = [(0, 0, 0, 0); (1, 0, 0, 0); (1, 0, 0, 1)].
Proof.
  intros hp hv H1 H2. cbv zeta. unfold krun. cbn [fold_left].
  apply Z.eqb_neq in H1, H2. rewrite Z.eqb_sym in H1.
  set (A2 := [(0, 0, 0, 0); (1, 0, 0, 0); (1, 0, 0, 1)]).
  set (st := fun (p : Z * Z) h v vid (a : list id4) => {| k_pc := p; k_dim := (2, 1, 1); k_vacs := [(0, 0, 0, 1)];
               k_hpc := h; k_hvac := v; k_vac_id_sc := vid; k_orb_id_pc := a |}).
  assert (E0 : fst (kstep fst snd hp hv (cset0 fst hp hv (2, 1) (2, 1, 1)) (KVac (VAdd [[0; 0; 0; 1]]))) =
               st (2, 1) (hp (2, 1)) (hv []) [] (build_orb_id_pc (2, 1, 1) 2 [])) by reflexivity.
  assert (E1 : ksync fst snd hp hv false (st (2, 1) (hp (2, 1)) (hv []) [] (build_orb_id_pc (2, 1, 1) 2 [])) =
               (st (2, 1) (hp (2, 1)) (hv [(0, 0, 0, 1)]) [1] A2, Ok tt)).
  { unfold ksync, st. cbn [k_pc k_dim k_vacs k_hpc k_hvac k_vac_id_sc k_orb_id_pc fst snd]. rewrite Z.eqb_refl, H2. reflexivity. }
  assert (E2 : ksync fst snd hp hv false (st (1, 1) (hp (2, 1)) (hv [(0, 0, 0, 1)]) [1] A2) =
               (st (1, 1) (hp (1, 1)) (hv [(0, 0, 0, 1)]) [1] A2, Err IDPCIndexError)).
  { unfold ksync, st. cbn [k_pc k_dim k_vacs k_hpc k_hvac k_vac_id_sc k_orb_id_pc fst snd]. rewrite Z.eqb_refl, H1. reflexivity. }
  assert (E3 : ksync fst snd hp hv false (st (1, 1) (hp (1, 1)) (hv [(0, 0, 0, 1)]) [1] A2) =
               (st (1, 1) (hp (1, 1)) (hv [(0, 0, 0, 1)]) [1] A2, Ok tt)).
  { unfold ksync, st. cbn [k_pc k_dim k_vacs k_hpc k_hvac k_vac_id_sc k_orb_id_pc fst snd]. rewrite !Z.eqb_refl. reflexivity. }
  rewrite E0. clear E0.
  assert (E4 : fst (kstep fst snd hp hv (fst (kstep fst snd hp hv (st (2, 1) (hp (2, 1)) (hv []) [] (build_orb_id_pc (2, 1, 1) 2 [])) (KSync false))) (KPc (1, 1))) =
               st (1, 1) (hp (2, 1)) (hv [(0, 0, 0, 1)]) [1] A2).
  { change (kstep fst snd hp hv ?s (KSync false)) with (ksync fst snd hp hv false s). rewrite E1. reflexivity. }
  rewrite E4. split; [exact (f_equal snd E2)|].
  assert (E5 : fst (kstep fst snd hp hv (st (1, 1) (hp (2, 1)) (hv [(0, 0, 0, 1)]) [1] A2) (KSync false)) =
               st (1, 1) (hp (1, 1)) (hv [(0, 0, 0, 1)]) [1] A2) by exact (f_equal fst E2).
  rewrite E5. split; [exact (f_equal snd E3)|].
  split; [exact (f_equal (fun x => fst (k_pc (fst x))) E3)|exact (f_equal (fun x => k_orb_id_pc (fst x)) E3)].
Qed.
