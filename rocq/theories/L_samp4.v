(** Samples: fresh arrays after any history. *)
From Verif Require Import Prelude Vec Cx M_hop M_pc M_inter M_index M_super M_bloch M_sample S_pc S_reach S_sample S_comp S_bloch
  L_base L_super L_super2 L_sample L_csr L_csr2 L_smat L_samp2 L_samp3.
From Coq Require Import Permutation Sorted.

Section Fresh.
  Context {E T X L : Type} {SE : Scalar E} {ST : Scalar T} (EL : ScalarLaws E) (TL : ScalarLaws T).
  Context (conj : E -> E) (Hcc : forall e, conj (conj e) = e) (zero : X) (frac_of : X * X * X -> vec T) (L0 : L).
  Context (inj cis : T -> E) (inv : T -> T) (cabs : E -> T) (leb : T -> T -> bool) (mag half : T) (h : heap E T).
  Notation row := (M_super.row E T).
  Notation sample := (sample E T).
  Notation mstep := (mstep conj inj cis inv cabs leb mag half h).
  Notation mrun := (mrun conj inj cis inv cabs leb mag half h).
  Notation built := (built conj zero frac_of L0 h).
  Notation mvd := (moved (@r_i E T) (@r_j E T) (@r_v E T) (@r_dr E T)).

  Add Ring Tr5 : (s_ring T TL).
  Definition same (s s' : sample) : Prop := m_sc s' = m_sc s /\ m_hop s' = m_hop s.
  Lemma same_trans a b c : same a b -> same b c -> same a c.
  Proof. intros [H1 H2] [H3 H4]. split; congruence. Qed.
  Lemma same_eng f s : same s (fst (init_orb_eng h f s)).
  Proof. unfold init_orb_eng. destruct f; [|destruct (m_eng s); [split; reflexivity|]]; destruct (fresh_eng h s); split; reflexivity. Qed.
  Lemma same_pos f s : same s (fst (init_orb_pos h f s)).
  Proof. unfold init_orb_pos. destruct f; [|destruct (m_pos s); [split; reflexivity|]]; destruct (fresh_pos h s); split; reflexivity. Qed.
  Lemma same_hops f s : same s (fst (init_hops conj h f s)).
  Proof. unfold init_hops. destruct f; [|destruct (m_rows s); [split; reflexivity|]]; destruct (fresh_rows conj h s); split; reflexivity. Qed.
  Lemma same_seq f g : (forall s, same s (fst (f s))) -> (forall s, same s (fst (g s))) -> forall s : sample, same s (fst (seq2 f g s)).
  Proof. intros Hf Hg s. unfold seq2. specialize (Hf s). destruct (f s) as [s' [[]|]]; [|exact Hf]. exact (same_trans _ _ _ Hf (Hg s')). Qed.
  Lemma same_when {A} (o : option A) f : (forall s, same s (fst (f s))) -> forall s : sample, same s (fst (when o f s)).
  Proof. intros Hf s. destruct o; [apply Hf|split; reflexivity]. Qed.
  Lemma same_step s o : same s (fst (mstep s o)).
  Proof.
    destruct o as [f|f|f| |f|b g|rc k]; cbn [M_sample.mstep].
    - apply same_eng.
    - apply same_pos.
    - apply same_hops.
    - apply same_seq; [apply same_when, same_eng|apply same_seq; [apply same_when, same_pos|apply same_when, same_hops]].
    - apply same_seq; [apply same_eng|apply same_seq; [apply same_hops|]]. intros u. unfold do_rescale. destruct (m_eng u); [|split; reflexivity].
      destruct (m_rows u) as [[rows dt]|]; [|split; reflexivity]. destruct (match f with Some _ => _ | None => _ end); split; reflexivity.
    - apply same_seq; [apply same_pos|apply same_seq; [apply same_hops|]]. intros u. unfold do_mag. destruct (negb _); [split; reflexivity|].
      destruct (bind _ _); split; reflexivity.
    - apply same_seq; [apply same_hops|]. intros u. unfold do_k. destruct (m_rows u) as [[rows dt]|]; split; reflexivity.
  Qed.
  Lemma same_run os : forall s, same s (mrun s os).
  Proof. induction os as [|o os IH]; intros s; [split; reflexivity|]. exact (same_trans _ _ _ (same_step s o) (IH _)). Qed.

  Lemma mapM_Forall2_iff {A B} (f : A -> res B) l ys : mapM f l = Ok ys -> Forall2 (fun x y => f x = Ok y) l ys.
  Proof. apply mapM_inv. Qed.
  Lemma nth_of_rd {A} (l : list A) k x : rd l k = Ok x -> 0 <= k /\ nth_error l (Z.to_nat k) = Some x.
  Proof. unfold rd. destruct (k <? 0) eqn:Hk; [discriminate|]. destruct (nth_error l (Z.to_nat k)); [|discriminate]. intros H. injection H as ->. split; [lia|reflexivity]. Qed.

  (** Energies of component i: those of its orbitals in the primitive cell. *)
  Definition comp_eng (i : Z) (l : list T) : Prop :=
    Forall2 (fun (t : Z * Z * Z * Z) w => nth_error (snd (h i)) (Z.to_nat (snd t)) = Some w) (o_orb_id_pc (s_os (fst (h i)))) l.
  Lemma comp_eng_ok i l : sc_orb_eng h i = Ok l -> comp_eng i l.
  Proof.
    unfold sc_orb_eng, build_orb_eng, comp_eng. intros H. apply mapM_inv in H. induction H as [|t w ts ws H HF IH]; constructor; [|exact IH].
    apply nth_of_rd in H. apply H.
  Qed.

  Lemma built_solid2 args s : built args s -> solid h s.
  Proof.
    intros [_ Hc] i Hi. destruct (component_ok conj zero frac_of L0 Hcc _ (Hc i Hi)) as (_ & _ & H1 & H2 & H3 & H4).
    split; [exact H1|]. split; [exact H2|]. split; [exact H3|exact H4].
  Qed.
  Lemma built_fit2 args s0 os : built args s0 -> fit h (mrun s0 os).
  Proof. intros H. apply fit_run. exact (fit_make h args s0 (proj1 H) (built_solid2 _ _ H)). Qed.

  Lemma eng_all args s0 os : built args s0 ->
    let s := mrun s0 os in exists engs e, Forall2 comp_eng (sc_args args) engs /\ blocks (map (fun i => num_orb_sc (s_os (fst (h i)))) (sc_args args)) engs e /\
      init_orb_eng h true s = (with_eng s (Some e), Ok tt) /\ (m_eng s = None -> init_orb_eng h false s = init_orb_eng h true s) /\
      (m_eng s <> None -> init_orb_eng h false s = (s, Ok tt)).
  Proof.
    intros Hb s. pose proof (built_fit2 args s0 os Hb) as F. destruct (make_sample_ok args s0 (proj1 Hb)) as (Hsc & _).
    destruct (same_run os s0) as [Hs1 Hs2]. destruct (eng_fresh h _ (proj1 (proj2 F))) as (engs & HF & He & Hbl). fold s in HF, He, Hbl, Hs1.
    assert (Hsz : sizes h s = map (fun i => num_orb_sc (s_os (fst (h i)))) (sc_args args)) by (unfold sizes; rewrite Hs1, Hsc; reflexivity).
    rewrite Hsz in Hbl. rewrite Hs1, Hsc in HF. exists engs, (concat engs). split; [|split; [exact Hbl|]].
    - clear Hbl He Hsz Hs1 Hsc. induction HF as [|i l is ls H HF IH]; [constructor|]. constructor; [apply comp_eng_ok; exact H|exact IH].
    - unfold init_orb_eng. rewrite He. split; [reflexivity|]. split; [intros ->; reflexivity|]. intros Hn. destruct (m_eng s); [reflexivity|contradiction].
  Qed.
  Lemma pos_all args s0 os : built args s0 ->
    let s := mrun s0 os in exists poss e, Forall2 (fun i l => get_orb_pos (fst (h i)) = Ok l) (sc_args args) poss /\
      blocks (map (fun i => num_orb_sc (s_os (fst (h i)))) (sc_args args)) poss e /\
      init_orb_pos h true s = (with_pos s (Some e), Ok tt) /\ snd (init_orb_pos h false s) = Ok tt /\ m_pos (fst (init_orb_pos h false s)) = Some e.
  Proof.
    intros Hb s. pose proof (built_fit2 args s0 os Hb) as F. destruct (make_sample_ok args s0 (proj1 Hb)) as (Hsc & _).
    destruct (same_run os s0) as [Hs1 Hs2]. destruct (pos_fresh h _ (proj1 (proj2 F))) as (engs & HF & He & Hbl). fold s in HF, He, Hbl, Hs1, F.
    assert (Hsz : sizes h s = map (fun i => num_orb_sc (s_os (fst (h i)))) (sc_args args)) by (unfold sizes; rewrite Hs1, Hsc; reflexivity).
    rewrite Hsz in Hbl. rewrite Hs1, Hsc in HF. exists engs, (concat engs). split; [exact HF|]. split; [exact Hbl|].
    unfold init_orb_pos. rewrite He. split; [reflexivity|]. destruct (m_pos s) as [p|] eqn:Hp; [|split; reflexivity].
    cbn [fst snd]. split; [reflexivity|]. destruct F as (_ & _ & _ & Hpp & _). rewrite Hp. destruct (Hpp _ Hp) as [_ Hp']. congruence.
  Qed.

  Lemma mapM_Err {A B} (f : A -> res B) l x : mapM f l = Err x -> exists a, In a l /\ f a = Err x.
  Proof.
    induction l as [|a l IH]; cbn [mapM]; intros H; [discriminate|]. destruct (f a) as [b|y] eqn:Hf; cbn [bind] in H.
    - destruct (mapM f l); cbn [bind] in H; [discriminate|]. destruct IH as (c & Hc & Hfc); [congruence|]. exists c. split; [right; exact Hc|exact Hfc].
    - injection H as ->. exists a. split; [left; reflexivity|exact Hf].
  Qed.

  (** The sample's rows, given those of the components. *)
  Definition joined (args : list (arg E)) (hs : list (list row * dtype)) (is : list (list row)) (q : list row * dtype) : Prop :=
    let ns := map (fun i => num_orb_sc (s_os (fst (h i)))) (sc_args args) in
    exists Bs Is, fst q = concat Bs ++ concat Is /\ (snd q = Float64 <-> In Float64 (map snd hs)) /\ length Bs = length hs /\ length Is = length is /\
      (forall m q B, nth_error hs m = Some q -> nth_error Bs m = Some B -> Forall2 (mvd (before ns m) (before ns m)) (fst q) B) /\
      (forall m b k x q I, nth_error (hop_args args) m = Some (b, k, x) -> nth_error is m = Some q -> nth_error Is m = Some I ->
         exists mb mk, first_at (sc_args args) b mb /\ first_at (sc_args args) k mk /\ Forall2 (mvd (before ns mb) (before ns mk)) q I).

  Lemma fresh_err s x : closed s -> fresh_rows conj h s = Err x ->
    (exists i, In i (m_sc s) /\ get_hop conj (fst (h i)) = Err x) \/
    (exists b k y, In (b, k, y) (m_hop s) /\ inter_get_hop (fst (h b)) (fst (h k)) y false = Err x).
  Proof.
    intros Hc H. unfold fresh_rows in H. destruct (mapM _ (enum (m_sc s))) as [a|y] eqn:Ha; cbn [bind] in H.
    - destruct (mapM _ (m_hop s)) as [b|y] eqn:Hb; cbn [bind] in H; [discriminate|]. injection H as ->. right.
      apply mapM_Err in Hb. destruct Hb as ([[b k] y] & Hin & Hy). exists b, k, y. split; [exact Hin|].
      destruct (inter_get_hop _ _ _ _) as [rows|z]; cbn [bind] in Hy; [|congruence]. exfalso.
      destruct (Hc b k y Hin) as [Hb Hk]. destruct (index_of_first _ _ Hb) as (mb & Hmb & Fb). destruct (index_of_first _ _ Hk) as (mk & Hmk & Fk).
      rewrite Hmb, Hmk in Hy. cbn [bind] in Hy. rewrite (ind_start_nth h s mb b (proj1 Fb)), (ind_start_nth h s mk k (proj1 Fk)) in Hy. discriminate.
    - injection H as ->. left. apply mapM_Err in Ha. destruct Ha as ([k i] & Hin & Hy). apply In_nth_error in Hin. destruct Hin as (m & Hm).
      rewrite nth_error_enum in Hm. destruct (nth_error (m_sc s) m) as [i0|] eqn:Hi; [|discriminate]. cbn in Hm. injection Hm as <- <-.
      exists i0. split; [exact (nth_error_In _ _ Hi)|]. destruct (get_hop conj (fst (h i0))); cbn [bind] in Hy; [|congruence].
      rewrite (ind_start_nth h s m i0 Hi) in Hy. discriminate.
  Qed.

  Lemma hops_all args s0 os : built args s0 ->
    let s := mrun s0 os in
    (forall hs is, Forall2 (fun i q => get_hop conj (fst (h i)) = Ok q) (sc_args args) hs ->
       Forall2 (fun t q => let '(b, k, x) := t in inter_get_hop (fst (h b)) (fst (h k)) x false = Ok q) (hop_args args) is ->
       exists q, joined args hs is q /\ init_hops conj h true s = (with_rescale (with_rows s (Some q)) s1, Ok tt)) /\
    (forall x, snd (init_hops conj h true s) = Err x -> fst (init_hops conj h true s) = s /\
       ((exists i, In i (sc_args args) /\ get_hop conj (fst (h i)) = Err x) \/
        (exists b k y, In (b, k, y) (hop_args args) /\ inter_get_hop (fst (h b)) (fst (h k)) y false = Err x))) /\
    (m_rows s = None -> init_hops conj h false s = init_hops conj h true s) /\
    (m_rows s <> None -> init_hops conj h false s = (s, Ok tt)).
  Proof.
    intros Hb s. pose proof (built_fit2 args s0 os Hb) as F. destruct (make_sample_ok args s0 (proj1 Hb)) as (Hsc & Hho & _).
    destruct (same_run os s0) as [Hs1 Hs2]. fold s in Hs1, Hs2, F. rewrite Hsc in Hs1. rewrite Hho in Hs2.
    assert (Hsz : sizes h s = map (fun i => num_orb_sc (s_os (fst (h i)))) (sc_args args)) by (unfold sizes; rewrite Hs1; reflexivity).
    split; [|split; [|split]].
    - intros hs is HF HG. assert (HG' : Forall2 (fun t q => inter_of h t = Ok q) (m_hop s) is).
      { rewrite Hs2. clear Hs2 Hho. induction HG as [|[[b k] x] q ts qs H HG IH]; [constructor|]. constructor; assumption. }
      rewrite <- Hs1 in HF. destruct (fresh_rows_ok conj h s hs is (proj1 F) HF HG') as (Bs & Is & dt & Hq & HD & HlB & HlI & HB & HI).
      exists (concat Bs ++ concat Is, dt). split.
      + exists Bs, Is. rewrite <- Hsz, <- Hs1, <- Hs2. cbn [fst snd]. auto 10.
      + unfold init_hops. rewrite Hq. reflexivity.
    - intros x Hx. unfold init_hops in *. destruct (fresh_rows conj h s) as [q|y] eqn:Hq; [discriminate|]. cbn [fst snd] in *. injection Hx as ->.
      split; [reflexivity|]. rewrite <- Hs1, <- Hs2. exact (fresh_err s x (proj1 F) Hq).
    - intros Hn. unfold init_hops. rewrite Hn. reflexivity.
    - intros Hn. unfold init_hops. destruct (m_rows s); [reflexivity|contradiction].
  Qed.

  (** reset_array: what was present becomes fresh, the rest stays absent. *)
  Lemma reset_all args s0 os : built args s0 -> let s := mrun s0 os in
    let '(s', r) := reset_array conj h s in
    (m_eng s' = None <-> m_eng s = None) /\ (m_pos s' = None <-> m_pos s = None) /\ (m_rows s' = None <-> m_rows s = None) /\
    (m_eng s <> None -> m_eng s' = m_eng (fst (init_orb_eng h true s))) /\
    (m_pos s <> None -> m_pos s' = m_pos (fst (init_orb_pos h true s))) /\
    (m_rows s <> None -> r = Ok tt -> m_rows s' = m_rows (fst (init_hops conj h true s)) /\ m_rescale s' = s1) /\
    (m_rows s = None -> r = Ok tt /\ m_rescale s' = m_rescale s).
  Proof.
    intros Hb s. pose proof (built_fit2 args s0 os Hb) as F. fold s in F.
    destruct (eng_fresh h s (proj1 (proj2 F))) as (engs & _ & He & _). destruct (pos_fresh h s (proj1 (proj2 F))) as (poss & _ & Hp & _).
    unfold reset_array, seq2, when, init_orb_eng, init_orb_pos, init_hops.
    assert (P1 : forall e, fresh_pos h (with_eng s e) = fresh_pos h s) by reflexivity.
    assert (R1 : forall e, fresh_rows conj h (with_eng s e) = fresh_rows conj h s) by reflexivity.
    assert (R2 : forall e, fresh_rows conj h (with_pos s e) = fresh_rows conj h s) by reflexivity.
    assert (R3 : forall e p, fresh_rows conj h (with_pos (with_eng s e) p) = fresh_rows conj h s) by reflexivity.
    rewrite He, Hp. destruct (m_eng s) eqn:Hme, (m_pos s) eqn:Hmp, (m_rows s) eqn:Hmr; rewrite ?P1, ?Hp, ?R1, ?R2, ?R3;
      destruct (fresh_rows conj h s) as [q|x]; cbn; rewrite ?Hme, ?Hmp, ?Hmr; repeat split; intros; congruence || discriminate || auto.
  Qed.

  (** The rows every method works with. *)
  Definition rows_of (s : sample) : option (list row * dtype) :=
    match m_rows s with Some q => Some q | None => match fresh_rows conj h s with Ok q => Some q | Err _ => None end end.
  Definition eng_of (s : sample) : option (list T) :=
    match m_eng s with Some q => Some q | None => match fresh_eng h s with Ok q => Some q | Err _ => None end end.
  Lemma hops_rows s : m_rows (fst (init_hops conj h false s)) = rows_of s.
  Proof. unfold init_hops, rows_of. destruct (m_rows s) eqn:Hr; [exact Hr|]. destruct (fresh_rows conj h s); [reflexivity|exact Hr]. Qed.
  Lemma rows_of_eng f s : rows_of (fst (init_orb_eng h f s)) = rows_of s.
  Proof. unfold init_orb_eng. destruct f; [|destruct (m_eng s); [reflexivity|]]; destruct (fresh_eng h s); reflexivity. Qed.
  Lemma rows_of_pos f s : rows_of (fst (init_orb_pos h f s)) = rows_of s.
  Proof. unfold init_orb_pos. destruct f; [|destruct (m_pos s); [reflexivity|]]; destruct (fresh_pos h s); reflexivity. Qed.
  Lemma eng_eng s : m_eng (fst (init_orb_eng h false s)) = eng_of s.
  Proof. unfold init_orb_eng, eng_of. destruct (m_eng s) eqn:Hr; [exact Hr|]. destruct (fresh_eng h s); [reflexivity|exact Hr]. Qed.
  Lemma pos_eng f s : m_eng (fst (init_orb_pos h f s)) = m_eng s.
  Proof. unfold init_orb_pos. destruct f; [|destruct (m_pos s); [reflexivity|]]; destruct (fresh_pos h s); reflexivity. Qed.
  Lemma hops_eng f s : m_eng (fst (init_hops conj h f s)) = m_eng s.
  Proof. unfold init_hops. destruct f; [|destruct (m_rows s); [reflexivity|]]; destruct (fresh_rows conj h s); reflexivity. Qed.

  Context (rabs : T -> T) (argsort : list Z -> list Z).
  Lemma dxy_state cutoff fast sort s : fit h s ->
    m_rows (fst (build_ham_dxy conj inj rabs leb h argsort cutoff fast sort s)) = rows_of s /\
    m_eng (fst (build_ham_dxy conj inj rabs leb h argsort cutoff fast sort s)) = eng_of s.
  Proof.
    intros Hf. unfold build_ham_dxy. destruct (fit_eng h false s Hf) as (F1 & O1 & _). rewrite seq2_ok by exact O1.
    destruct (fit_pos h false _ F1) as (F2 & O2 & _). rewrite seq2_ok by exact O2.
    rewrite <- (eng_eng s), <- (rows_of_eng false s), <- (pos_eng false (fst (init_orb_eng h false s))), <- (rows_of_pos false (fst (init_orb_eng h false s))).
    rewrite <- hops_rows, <- (hops_eng false (fst (init_orb_pos h false (fst (init_orb_eng h false s))))).
    destruct (init_hops conj h false _). split; reflexivity.
  Qed.
  Lemma csr_state s : fit h s ->
    m_rows (fst (build_ham_csr conj inj h s)) = rows_of s /\ m_eng (fst (build_ham_csr conj inj h s)) = eng_of s.
  Proof.
    intros Hf. unfold build_ham_csr. destruct (fit_eng h false s Hf) as (F1 & O1 & _). rewrite seq2_ok by exact O1.
    rewrite <- (eng_eng s), <- (rows_of_eng false s). rewrite <- hops_rows, <- (hops_eng false (fst (init_orb_eng h false s))).
    destruct (init_hops conj h false _). split; reflexivity.
  Qed.
  Lemma dxy_csr_state c s : m_rows (fst (build_dxy_csr conj h c s)) = rows_of s.
  Proof. unfold build_dxy_csr. rewrite <- hops_rows. destruct (init_hops conj h false s). reflexivity. Qed.

  Context (SL : StarLaws conj) (Hre : forall w, conj (inj w) = inj w) (Hi0 : inj s0 = s0) (Hsort : sorts argsort).
  Notation crow c := (@csr_row E T (c_indptr c) (c_indices c) (c_hopv c) (c_dx c) (c_dy c)).
  Lemma kept_all keep eng : (forall w, In w eng -> keep w = true \/ w = s0) -> kept (T:=T) keep eng = eng.
  Proof.
    intros H. unfold kept. rewrite <- (map_id eng) at 2. apply map_ext_in. intros w Hw. destruct (keep w) eqn:Hk; [reflexivity|].
    destruct (H w Hw) as [H'|H']; congruence.
  Qed.
  (** All three builders from the same state. *)
  Lemma builders_agree args s1 os cutoff fast sort : built args s1 ->
    let s := mrun s1 os in
    let dxy := snd (build_ham_dxy conj inj rabs leb h argsort cutoff fast sort s) in
    let csr := snd (build_ham_csr conj inj h s) in
    let dx := snd (build_dxy_csr conj h 0 s) in let dy := snd (build_dxy_csr conj h 1 s) in
    match rows_of s with
    | None => exists x, dxy = Err x /\ csr = Err x /\ dx = Err x /\ dy = Err x
    | Some (_, Float64) => dxy = Err ValueError /\ (exists H DX DY, csr = Ok H /\ dx = Ok DX /\ dy = Ok DY)
    | Some (rows, Int64) => exists eng c H DX DY, eng_of s = Some eng /\ dxy = Ok c /\ csr = Ok H /\ dx = Ok DX /\ dy = Ok DY /\
        let n := m_num_orb h s in
        Z.of_nat (length eng) = n /\ inside r_i r_j n rows /\
        (forall i j, H i j = ham conj inj r_i r_j r_v eng rows i j) /\
        (well_formed (length eng) (c_indptr c) (length (c_indices c)) /\ length (c_hopv c) = length (c_indices c) /\
         length (c_dx c) = length (c_indices c) /\ length (c_dy c) = length (c_indices c)) /\
        (forall i, 0 <= i < n -> Permutation (crow c i) (row_entries conj inj r_i r_j r_v (fun w => leb cutoff (rabs w)) dr_x dr_y eng rows i)) /\
        (forall i e, 0 <= i < n -> In e (crow c i) -> 0 <= e_col e < n) /\
        (sort = true -> forall i, 0 <= i < n -> StronglySorted Z.le (map e_col (crow c i))) /\
        (forall i j, 0 <= i < n -> 0 <= j < n ->
           represented e_hop (crow c) i j = conj (represented e_hop (crow c) j i) /\
           represented e_dx (crow c) i j = DX i j /\ represented e_dy (crow c) i j = DY i j /\
           DX i j = sopp (DX j i) /\ DY i j = sopp (DY j i) /\
           ((forall w, In w eng -> leb cutoff (rabs w) = true \/ w = s0) -> represented e_hop (crow c) i j = H i j) /\
           (i <> j -> represented e_hop (crow c) i j = H i j))
    end.
  Proof.
    intros Hb s. pose proof (built_fit2 args s1 os Hb) as F. fold s in F.
    pose proof (build_ham_dxy_ok conj inj rabs leb h argsort Hsort cutoff fast sort s F) as HA.
    pose proof (build_ham_csr_ok EL conj SL inj h s F) as HB.
    pose proof (build_dxy_csr_ok TL conj h 0 s F) as HX. pose proof (build_dxy_csr_ok TL conj h 1 s F) as HY.
    pose proof (dxy_state cutoff fast sort s F) as [SA1 SA2]. pose proof (csr_state s F) as [SB1 SB2].
    pose proof (dxy_csr_state 0 s) as SX. pose proof (dxy_csr_state 1 s) as SY.
    assert (Herr : rows_of s = None -> exists x, snd (build_ham_dxy conj inj rabs leb h argsort cutoff fast sort s) = Err x /\
       snd (build_ham_csr conj inj h s) = Err x /\ snd (build_dxy_csr conj h 0 s) = Err x /\ snd (build_dxy_csr conj h 1 s) = Err x).
    { intros Hn. unfold rows_of in Hn. destruct (m_rows s) eqn:Hr; [discriminate|]. destruct (fresh_rows conj h s) as [|x] eqn:Hf; [discriminate|].
      destruct (eng_fresh h s (proj1 (proj2 F))) as (engs & _ & He & _). destruct (pos_fresh h s (proj1 (proj2 F))) as (poss & _ & Hp & _).
      exists x. unfold build_ham_dxy, build_ham_csr, build_dxy_csr, seq2, init_orb_eng, init_orb_pos, init_hops.
      assert (P1 : forall e, fresh_pos h (with_eng s e) = fresh_pos h s) by reflexivity.
      assert (R1 : forall e, fresh_rows conj h (with_eng s e) = fresh_rows conj h s) by reflexivity.
      assert (R2 : forall e, fresh_rows conj h (with_pos s e) = fresh_rows conj h s) by reflexivity.
      assert (R3 : forall e p, fresh_rows conj h (with_pos (with_eng s e) p) = fresh_rows conj h s) by reflexivity.
      rewrite He, Hr, Hf. destruct (m_eng s), (m_pos s) eqn:Hmp; cbn [m_pos with_eng m_rows]; rewrite ?P1, ?Hp, ?R1, ?R2, ?R3, ?Hmp, ?Hr, ?Hf; cbn; rewrite ?P1, ?Hp, ?R1, ?R2, ?R3, ?Hmp, ?Hr, ?Hf; auto. }
    destruct (build_ham_dxy conj inj rabs leb h argsort cutoff fast sort s) as [sa ra]. destruct (build_ham_csr conj inj h s) as [sb rb].
    destruct (build_dxy_csr conj h 0 s) as [sx rx]. destruct (build_dxy_csr conj h 1 s) as [sy ry]. cbn [fst snd] in *. cbv zeta.
    rewrite SA1 in HA. rewrite SB1 in HB. rewrite SX in HX. rewrite SY in HY.
    destruct HA as (_ & _ & HA), HB as (_ & _ & HB).
    destruct (rows_of s) as [[rows dt]|]; [|auto].
    destruct HB as (eng & H & E1 & E2 & E3 & -> & HH). destruct HX as (DX & -> & HX). destruct HY as (DY & -> & HY).
    destruct dt; [|split; [exact HA|eauto 10]]. destruct HA as (eng' & c & E1' & _ & _ & -> & HG & HS).
    assert (eng' = eng) by congruence. subst eng'. exists eng, c, H, DX, DY. split; [congruence|]. do 4 (split; [reflexivity|]).
    split; [exact E2|]. split; [exact E3|]. split; [exact HH|]. split; [exact (proj1 HG)|]. rewrite <- E2 in *. split; [exact (proj2 HG)|].
    split; [intros i e; exact (csr_good_cols conj inj rabs leb cutoff eng rows c i e E3 HG)|]. split; [exact HS|].
    intros i j Hi Hj. rewrite !(csr_good_hop EL conj inj Hi0 rabs leb cutoff eng rows c) by assumption.
    rewrite (csr_good_dx TL conj inj rabs leb cutoff eng rows c) by assumption. rewrite (csr_good_dy TL conj inj rabs leb cutoff eng rows c) by assumption.
    rewrite HH, !HX, !HY. change (0 =? 0) with true. change (1 =? 0) with false. cbn iota.
    split; [apply (ham_herm EL conj SL inj Hre)|]. split; [reflexivity|]. split; [reflexivity|]. split; [apply (shift_anti TL)|]. split; [apply (shift_anti TL)|]. split.
    - intros Hk. rewrite kept_all; [reflexivity|exact Hk].
    - intros Hne. unfold ham, site. replace (i =? j) with false by lia. reflexivity.
  Qed.

  Lemma k_dot (kpt d : vec T) : k_phase kpt d = dot3 kpt d.
  Proof. destruct kpt as [[a b] c], d as [[x y] z]. cbn. ring. Qed.
  (** Bloch Hamiltonians of a sample whose arrays are present. *)
  Lemma bloch_all args s1 os recip k eng q : built args s1 ->
    let s := mrun s1 os in m_eng s = Some eng -> m_rows s = Some q ->
    exists H, sample_ham_csr conj inj cis h recip k 1 s = Ok H /\ hermitian conj (m_num_orb h s) H /\
      (forall i j, H i j = smul (ham conj inj r_i r_j (fun r => smul (r_v r) (cis (dot3 (vmat k recip) (r_dr r)))) eng (fst q) i j) (inj (m_rescale s))) /\
      (snd q = Int64 -> exists H', sample_ham_dense conj inj cis recip k 1 s = Ok H' /\ forall i j, H' i j = H i j) /\
      (snd q = Float64 -> sample_ham_dense conj inj cis recip k 1 s = Err ValueError).
  Proof.
    intros Hb s He Hr. pose proof (built_fit2 args s1 os Hb) as F. fold s in F. destruct q as [rows dt].
    destruct (csr_sample EL conj SL inj cis h s recip k eng rows dt F He Hr) as (H & HH & HV).
    assert (Hk : forall i j, smul (ham conj inj r_i r_j (with_k cis recip k) eng rows i j) (inj (m_rescale s)) =
      smul (ham conj inj r_i r_j (fun r => smul (r_v r) (cis (dot3 (vmat k recip) (r_dr r)))) eng rows i j) (inj (m_rescale s))).
    { intros i j. unfold ham, hop_part. do 3 f_equal. apply map_ext. intros r. unfold with_k. rewrite k_dot. reflexivity. }
    exists H. split; [exact HH|]. split; [|split; [|split]].
    - intros i j _ _. rewrite !HV, (conj_mul conj SL), Hre. rewrite (ham_herm EL conj SL inj Hre). reflexivity.
    - intros i j. rewrite HV. apply Hk.
    - cbn [snd]. intros ->. destruct (dense_sample EL conj SL inj cis Hre h s recip k eng rows F He Hr) as (H' & HH' & _ & HV').
      exists H'. split; [exact HH'|]. intros i j. rewrite HV, HV'. reflexivity.
    - cbn [snd]. intros ->. unfold sample_ham_dense. rewrite He, Hr. reflexivity.
  Qed.
End Fresh.
