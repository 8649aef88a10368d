(** Samples: theorems for all histories. *)
From Verif Require Import Prelude Vec Cx M_hop M_pc M_inter M_index M_super M_bloch M_sample S_pc S_reach S_sample S_comp S_bloch
  L_base L_super L_super2 L_sample L_csr L_csr2 L_smat L_samp2.
From Coq Require Import Permutation Sorted.

Section Hist.
  Context {E T X L : Type} {SE : Scalar E} {ST : Scalar T} (EL : ScalarLaws E) (TL : ScalarLaws T).
  Context (conj : E -> E) (SL : StarLaws conj) (zero : X) (frac_of : X * X * X -> vec T) (L0 : L).
  Context (inj cis : T -> E) (Hre : forall w, conj (inj w) = inj w) (Hi0 : inj s0 = s0).
  Context (inv : T -> T) (cabs : E -> T) (rabs : T -> T) (leb : T -> T -> bool) (mag half : T) (h : heap E T).
  Notation row := (M_super.row E T).
  Notation sample := (sample E T).
  Notation mrun := (mrun conj inj cis inv cabs leb mag half h).
  Notation built := (built conj zero frac_of L0 h).

  Lemma built_solid args s : built args s -> solid h s.
  Proof.
    intros [_ Hc] i Hi. destruct (component_ok conj zero frac_of L0 (conj_conj conj SL) _ (Hc i Hi)) as (_ & _ & H1 & H2 & H3 & H4).
    split; [exact H1|]. split; [exact H2|]. split; [exact H3|exact H4].
  Qed.
  Lemma built_fit args s0 os : built args s0 -> fit h (mrun s0 os).
  Proof.
    intros H. apply fit_run. exact (fit_make h args s0 (proj1 H) (built_solid _ _ H)).
  Qed.

  (** *** Bloch Hamiltonians *)
  Definition with_k (recip : mat T) (k : vec T) (r : row) : E := smul (r_v r) (cis (k_phase (vmat k recip) (r_dr r))).
  Lemma ham_hop_k recip k eng rows i j :
    ham conj inj r_i r_j r_v eng (build_hop_k cis rows (vmat k recip)) i j = ham conj inj r_i r_j (with_k recip k) eng rows i j.
  Proof. unfold ham, hop_part, build_hop_k. rewrite map_map. reflexivity. Qed.
  Lemma inside_k m recip k (rows : list row) : inside r_i r_j m rows -> inside r_i r_j m (build_hop_k cis rows (vmat k recip)).
  Proof. intros H. apply inside_map; [intros r; split; reflexivity|exact H]. Qed.

  Lemma dense_sample s recip k eng rows : fit h s -> m_eng s = Some eng -> m_rows s = Some (rows, Int64) ->
    exists H, sample_ham_dense conj inj cis recip k 1 s = Ok H /\ hermitian conj (m_num_orb h s) H /\
      (forall i j, H i j = smul (ham conj inj r_i r_j (with_k recip k) eng rows i j) (inj (m_rescale s))).
  Proof.
    intros Hf He Hr. destruct Hf as (_ & _ & H3 & _ & H5). specialize (H3 _ He). specialize (H5 _ Hr). cbn [fst] in H5.
    unfold sample_ham_dense. rewrite He, Hr. cbn [Z.eqb negb got bind ints fst snd]. change (negb (1 =? 1)) with false. cbn iota. cbn [bind ints snd fst].
    destruct (fill_ham_ok EL conj inj eng (build_hop_k cis rows (vmat k recip))) as (m & Hm & Hv); [apply inside_k; rewrite H3; exact H5|].
    rewrite Hm. cbn [bind]. eexists. split; [reflexivity|]. split.
    - intros i j _ _. cbv beta. rewrite (conj_mul conj SL), Hre, !Hv. rewrite (ham_herm EL conj SL inj Hre). reflexivity.
    - intros i j. cbv beta. rewrite Hv, ham_hop_k. reflexivity.
  Qed.
  Lemma csr_sample s recip k eng rows dt : fit h s -> m_eng s = Some eng -> m_rows s = Some (rows, dt) ->
    exists H, sample_ham_csr conj inj cis h recip k 1 s = Ok H /\
      (forall i j, H i j = smul (ham conj inj r_i r_j (with_k recip k) eng rows i j) (inj (m_rescale s))).
  Proof.
    intros Hf He Hr. destruct Hf as (_ & _ & H3 & _ & H5). specialize (H5 _ Hr). cbn [fst] in H5.
    unfold sample_ham_csr. rewrite He, Hr. change (negb (1 =? 1)) with false. cbn iota. cbn [got bind fst].
    destruct (csr_sum_ok EL conj SL inj (m_num_orb h s) eng (build_hop_k cis rows (vmat k recip))) as (m & Hm & Hv); [apply inside_k; exact H5|].
    rewrite Hm. cbn [bind]. eexists. split; [reflexivity|]. intros i j. cbv beta. rewrite Hv, ham_hop_k. reflexivity.
  Qed.

  (** *** Sparse builders *)
  Context (argsort : list Z -> list Z) (Hsort : sorts argsort).
  Notation crow c := (@csr_row E T (c_indptr c) (c_indices c) (c_hopv c) (c_dx c) (c_dy c)).
  Definition csr_good (cutoff : T) (eng : list T) (rows : list row) (c : csr E T) : Prop :=
    (well_formed (length eng) (c_indptr c) (length (c_indices c)) /\ length (c_hopv c) = length (c_indices c) /\
     length (c_dx c) = length (c_indices c) /\ length (c_dy c) = length (c_indices c)) /\
    forall i, 0 <= i < Z.of_nat (length eng) ->
      Permutation (crow c i) (row_entries conj inj r_i r_j r_v (keep rabs leb cutoff) dr_x dr_y eng rows i).

  Lemma dxy_arrays cutoff eng rows (fast sort : bool) : inside r_i r_j (Z.of_nat (length eng)) rows ->
    exists c, bind (if fast then build_ham_dxy_fast conj inj rabs leb eng rows cutoff else build_ham_dxy_safe conj inj rabs leb argsort eng rows cutoff)
                   (fun c => if sort then sort_col_csr argsort c else Ok c) = Ok c /\ csr_good cutoff eng rows c /\
      (sort = true -> forall i, 0 <= i < Z.of_nat (length eng) -> StronglySorted Z.le (map e_col (crow c i))).
  Proof.
    intros H.
    assert (H1 : exists c, (if fast then build_ham_dxy_fast conj inj rabs leb eng rows cutoff else build_ham_dxy_safe conj inj rabs leb argsort eng rows cutoff) = Ok c /\ csr_good cutoff eng rows c).
    { destruct fast.
      - destruct (fast_ok conj inj rabs leb cutoff eng rows H) as (c & Hc & Hw & Hp). exists c. split; [exact Hc|]. split; [exact Hw|].
        intros i Hi. rewrite (Hp i Hi). reflexivity.
      - destruct (safe_ok conj inj rabs leb argsort Hsort cutoff eng rows H) as (c & Hc & Hw & Hp). exists c. split; [exact Hc|]. split; [exact Hw|exact Hp]. }
    destruct H1 as (c & -> & Hg). cbn [bind]. destruct sort; [|exists c; split; [reflexivity|split; [exact Hg|discriminate]]].
    destruct Hg as ((Hw & L1 & L2 & L3) & Hp).
    destruct (sort_col_ok argsort Hsort (length eng) c Hw L1 L2 L3) as (c' & Hc' & Ei & K0 & K1 & K2 & K3 & Hrow).
    exists c'. split; [exact Hc'|]. split.
    - split; [rewrite Ei, K0, K1, K2, K3; auto|]. intros i Hi. destruct (Hrow i Hi) as [Hpi _]. cbv zeta in Hpi. etransitivity; [exact Hpi|apply Hp; exact Hi].
    - intros _ i Hi. apply (Hrow i Hi).
  Qed.

  Lemma csr_good_cols cutoff eng rows c i e : inside r_i r_j (Z.of_nat (length eng)) rows -> csr_good cutoff eng rows c ->
    0 <= i < Z.of_nat (length eng) -> In e (crow c i) -> 0 <= e_col e < Z.of_nat (length eng).
  Proof.
    intros Hin [_ Hp] Hi He. apply (Permutation_in _ (Hp i Hi)) in He. unfold row_entries in He. apply in_app_or in He. destruct He as [He|He].
    - destruct (nth_error eng (Z.to_nat i)) as [w|]; [|destruct He]. destruct (keep rabs leb cutoff w); [|destruct He]. destruct He as [<-|[]]. exact Hi.
    - apply in_flat_map in He. destruct He as (r & Hr & He). unfold inside in Hin. rewrite Forall_forall in Hin. specialize (Hin r Hr).
      apply in_app_or in He. destruct He as [He|He].
      + destruct (r_i r =? i); [|destruct He]. destruct He as [<-|[]]. cbn [e_col]. apply Hin.
      + destruct (r_j r =? i); [|destruct He]. destruct He as [<-|[]]. cbn [e_col]. apply Hin.
  Qed.
  Lemma csr_good_hop cutoff eng rows c i j : csr_good cutoff eng rows c -> 0 <= i < Z.of_nat (length eng) ->
    represented e_hop (crow c) i j = ham conj inj r_i r_j r_v (kept (keep rabs leb cutoff) eng) rows i j.
  Proof.
    intros [_ Hp] Hi. rewrite <- (represented_hop EL conj inj (keep rabs leb cutoff) Hi0) by exact (proj1 Hi).
    apply (represented_perm EL). apply Hp. exact Hi.
  Qed.
  Lemma csr_good_dx cutoff eng rows c i j : csr_good cutoff eng rows c -> 0 <= i < Z.of_nat (length eng) ->
    represented e_dx (crow c) i j = shift_part r_i r_j dr_x rows i j.
  Proof.
    intros [_ Hp] Hi. rewrite <- (represented_dx TL conj inj (keep rabs leb cutoff) eng). apply (represented_perm TL). apply Hp. exact Hi.
  Qed.
  Lemma csr_good_dy cutoff eng rows c i j : csr_good cutoff eng rows c -> 0 <= i < Z.of_nat (length eng) ->
    represented e_dy (crow c) i j = shift_part r_i r_j dr_y rows i j.
  Proof.
    intros [_ Hp] Hi. rewrite <- (represented_dy TL conj inj (keep rabs leb cutoff) eng). apply (represented_perm TL). apply Hp. exact Hi.
  Qed.

  (** The calls on a sample. *)
  Lemma seq2_ok (f g : sample -> sample * res unit) s : snd (f s) = Ok tt -> seq2 f g s = g (fst (f s)).
  Proof. unfold seq2. destruct (f s) as [s' r]. cbn [fst snd]. intros ->. reflexivity. Qed.

  Lemma eng_keeps f s : m_sc (fst (init_orb_eng h f s)) = m_sc s.
  Proof. unfold init_orb_eng. destruct f; [|destruct (m_eng s); [reflexivity|]]; destruct (fresh_eng h s); reflexivity. Qed.
  Lemma pos_keeps f s : m_sc (fst (init_orb_pos h f s)) = m_sc s /\ m_eng (fst (init_orb_pos h f s)) = m_eng s.
  Proof. unfold init_orb_pos. destruct f; [|destruct (m_pos s); [split; reflexivity|]]; destruct (fresh_pos h s); split; reflexivity. Qed.

  Lemma build_ham_dxy_ok cutoff fast sort s : fit h s -> 
    let '(s', r) := build_ham_dxy conj inj rabs leb h argsort cutoff fast sort s in
    fit h s' /\ m_sc s' = m_sc s /\
    match m_rows s' with
    | Some (rows, Int64) => exists eng c, m_eng s' = Some eng /\ Z.of_nat (length eng) = m_num_orb h s /\
        inside r_i r_j (m_num_orb h s) rows /\ r = Ok c /\ csr_good cutoff eng rows c /\
        (sort = true -> forall i, 0 <= i < m_num_orb h s -> StronglySorted Z.le (map e_col (crow c i)))
    | Some (_, Float64) => r = Err ValueError
    | None => exists x, r = Err x
    end.
  Proof.
    intros Hf. unfold build_ham_dxy.
    destruct (fit_eng h false s Hf) as (F1 & O1 & eng & He). rewrite seq2_ok by exact O1.
    destruct (fit_pos h false _ F1) as (F2 & O2 & pos & _). rewrite seq2_ok by exact O2.
    destruct (fit_hops conj h false _ F2) as (F3 & O3). set (s2 := fst (init_orb_pos h false (fst (init_orb_eng h false s)))) in *.
    assert (Hsc : m_sc s2 = m_sc s /\ m_eng s2 = Some eng).
    { unfold s2. destruct (pos_keeps false (fst (init_orb_eng h false s))) as [-> ->]. rewrite eng_keeps. split; [reflexivity|exact He]. }
    assert (Hsc3 : m_sc (fst (init_hops conj h false s2)) = m_sc s /\ m_eng (fst (init_hops conj h false s2)) = Some eng).
    { unfold init_hops. destruct (m_rows s2); [exact Hsc|]. destruct (fresh_rows conj h s2); exact Hsc. }
    destruct (init_hops conj h false s2) as [s3 r3] eqn:H3. cbn [fst snd] in *. destruct Hsc3 as [Hsc3 He3].
    split; [exact F3|]. split; [exact Hsc3|].
    assert (Hn : m_num_orb h s3 = m_num_orb h s) by (unfold m_num_orb, sizes; rewrite Hsc3; reflexivity).
    destruct (m_rows s3) as [[rows dt]|] eqn:Hr3.
    - assert (r3 = Ok tt).
      { unfold init_hops in H3. destruct (m_rows s2) eqn:Hr2; [congruence|]. destruct (fresh_rows conj h s2); [congruence|].
        injection H3 as <- <-. congruence. }
      subst r3. rewrite He3. cbn [got bind]. unfold ints. cbn [snd fst]. destruct dt; [|reflexivity]. cbn [bind].
      destruct F3 as (_ & _ & HF3 & _ & HF5). specialize (HF3 _ He3). specialize (HF5 _ Hr3). cbn [fst] in HF5. rewrite Hn in HF3, HF5.
      destruct (dxy_arrays cutoff eng rows fast sort) as (c & Hc & Hg & Hs); [rewrite HF3; exact HF5|].
      exists eng, c. split; [reflexivity|]. split; [exact HF3|]. split; [exact HF5|]. split; [exact Hc|]. split; [exact Hg|].
      intros Hb i Hi. apply (Hs Hb). rewrite HF3. exact Hi.
    - destruct r3 as [[]|x]; [|eauto]. destruct (O3 eq_refl) as (q & Hq). congruence.
  Qed.
  Lemma build_ham_csr_ok s : fit h s ->
    let '(s', r) := build_ham_csr conj inj h s in
    fit h s' /\ m_sc s' = m_sc s /\
    match m_rows s' with
    | Some (rows, _) => exists eng H, m_eng s' = Some eng /\ Z.of_nat (length eng) = m_num_orb h s /\
        inside r_i r_j (m_num_orb h s) rows /\ r = Ok H /\ forall i j, H i j = ham conj inj r_i r_j r_v eng rows i j
    | None => exists x, r = Err x
    end.
  Proof.
    intros Hf. unfold build_ham_csr.
    destruct (fit_eng h false s Hf) as (F1 & O1 & eng & He). rewrite seq2_ok by exact O1.
    destruct (fit_hops conj h false _ F1) as (F3 & O3). set (s2 := fst (init_orb_eng h false s)) in *.
    assert (Hsc : m_sc s2 = m_sc s).
    { unfold s2, init_orb_eng. destruct (m_eng s); [reflexivity|]. destruct (fresh_eng h s); reflexivity. }
    assert (Hsc3 : m_sc (fst (init_hops conj h false s2)) = m_sc s /\ m_eng (fst (init_hops conj h false s2)) = Some eng).
    { unfold init_hops. destruct (m_rows s2); [split; assumption|]. destruct (fresh_rows conj h s2); split; assumption. }
    destruct (init_hops conj h false s2) as [s3 r3] eqn:H3. cbn [fst snd] in *. destruct Hsc3 as [Hsc3 He3].
    split; [exact F3|]. split; [exact Hsc3|].
    assert (Hn : m_num_orb h s3 = m_num_orb h s) by (unfold m_num_orb, sizes; rewrite Hsc3; reflexivity).
    destruct (m_rows s3) as [[rows dt]|] eqn:Hr3.
    - assert (r3 = Ok tt).
      { unfold init_hops in H3. destruct (m_rows s2) eqn:Hr2; [congruence|]. destruct (fresh_rows conj h s2); [congruence|].
        injection H3 as <- <-. congruence. }
      subst r3. rewrite He3. cbn [got bind fst].
      destruct F3 as (_ & _ & HF3 & _ & HF5). specialize (HF3 _ He3). specialize (HF5 _ Hr3). cbn [fst] in HF5.
      destruct (csr_sum_ok EL conj SL inj (m_num_orb h s3) eng rows HF5) as (m & Hm & Hv).
      rewrite Hn in HF3, HF5. exists eng, m. auto.
    - destruct r3 as [[]|x]; [|eauto]. destruct (O3 eq_refl) as (q & Hq). congruence.
  Qed.
  Lemma build_dxy_csr_ok b s : fit h s ->
    let '(s', r) := build_dxy_csr conj h b s in
    match m_rows s' with
    | Some (rows, _) => exists D, r = Ok D /\ forall i j, D i j = shift_part r_i r_j (if b =? 0 then dr_x else dr_y) rows i j
    | None => exists x, r = Err x
    end.
  Proof.
    intros Hf. unfold build_dxy_csr. destruct (fit_hops conj h false _ Hf) as (F3 & O3).
    destruct (init_hops conj h false s) as [s3 r3] eqn:H3. cbn [fst snd] in *.
    destruct (m_rows s3) as [[rows dt]|] eqn:Hr3.
    - assert (r3 = Ok tt).
      { unfold init_hops in H3. destruct (m_rows s) eqn:Hr2; [congruence|]. destruct (fresh_rows conj h s); [congruence|].
        injection H3 as <- <-. congruence. }
      subst r3. cbn [got bind fst]. destruct F3 as (_ & _ & HF3 & _ & HF5). specialize (HF5 _ Hr3). cbn [fst] in HF5.
      rewrite (proj2 (coo_ok_inside (m_num_orb h s3) rows) HF5). eexists. split; [reflexivity|]. intros i j. cbv beta zeta.
      rewrite (coo_shift TL). unfold shift_part. f_equal. apply map_ext. intros r. replace (dr_c b r) with ((if b =? 0 then dr_x else dr_y) r); [reflexivity|].
      unfold dr_c, dr_x, dr_y. destruct (b =? 0), (r_dr r) as [[x y] z]; reflexivity.
    - destruct r3 as [[]|x]; [|eauto]. destruct (O3 eq_refl) as (q & Hq). congruence.
  Qed.
End Hist.
