(** Samples: rescaling. *)
From Verif Require Import Prelude Vec Cx M_hop M_pc M_inter M_index M_super M_bloch M_sample S_pc S_reach S_sample S_comp S_bloch
  L_base L_super L_super2 L_sample L_csr L_smat L_samp2 L_samp3.
From Coq Require Import Permutation Sorted.

Section Resc.
  Context {E T : Type} {SE : Scalar E} {ST : Scalar T} (EL : ScalarLaws E) (TL : ScalarLaws T).
  Context (conj : E -> E) (inj cis : T -> E) (inv : T -> T) (RL : RealLaws conj inj inv).
  Context (cabs : E -> T) (leb : T -> T -> bool) (mag half : T) (h : heap E T).
  Add Ring Er4 : (s_ring E EL).
  Add Ring Tr4 : (s_ring T TL).
  Notation row := (M_super.row E T).
  Notation sample := (sample E T).
  Notation mstep := (mstep conj inj cis inv cabs leb mag half h).
  Notation mrun := (mrun conj inj cis inv cabs leb mag half h).

  (** Sequences without forced initialisation of the energies or hoppings
      (reset_array is allowed). *)
  Definition calm (o : mop T) : Prop := match o with MInitEng true | MInitHop true => False | _ => True end.
  (** The calls of a sequence other than rescale_ham. *)
  Definition erase (o : mop T) : list (mop T) := match o with MRescale _ => [MInitEng false; MInitHop false] | _ => [o] end.

  Definition scaled (c : T) (e : list T) : list T := map (fun x => smul x c) e.
  Definition view (c : T) (q : list row * dtype) : list row * dtype := (scale_rows inj c (fst q), snd q).

  Lemma scaled_1 e : scaled s1 e = e.
  Proof. unfold scaled. rewrite <- (map_id e) at 2. apply map_ext. intros x. ring. Qed.
  Lemma scaled_mul a b e : scaled a (scaled b e) = scaled (smul b a) e.
  Proof. unfold scaled. rewrite map_map. apply map_ext. intros x. ring. Qed.
  Lemma rows_1 rows : scale_rows inj s1 rows = rows.
  Proof. unfold scale_rows. rewrite <- (map_id rows) at 2. apply map_ext. intros [i j v d]. cbn. f_equal. rewrite (inj_1 conj inj inv RL). ring. Qed.
  Lemma rows_mul a b rows : scale_rows inj a (scale_rows inj b rows) = scale_rows inj (smul b a) rows.
  Proof. unfold scale_rows. rewrite map_map. apply map_ext. intros [i j v d]. cbn. f_equal. rewrite (inj_mul conj inj inv RL). ring. Qed.
  Lemma view_1 q : view s1 q = q.
  Proof. destruct q as [rows dt]. unfold view. cbn [fst snd]. rewrite rows_1. reflexivity. Qed.

  Definition known (s : sample) : Prop := fit h s /\ (forall q, m_rows s = Some q -> exists q', fresh_rows conj h s = Ok q').
  Definition sim (s s' : sample) : Prop :=
    known s /\ m_sc s' = m_sc s /\ m_hop s' = m_hop s /\ m_pos s' = m_pos s /\ m_rescale s' = s1 /\ m_rescale s <> s0 /\
    m_eng s' = option_map (scaled (m_rescale s)) (m_eng s) /\ m_rows s' = option_map (view (m_rescale s)) (m_rows s) /\
    (m_eng s = None \/ m_rows s = None -> m_rescale s = s1).

  Lemma fresh_eng_same s s' : m_sc s' = m_sc s -> fresh_eng h s' = fresh_eng h s.
  Proof. intros H. unfold fresh_eng. rewrite H. reflexivity. Qed.
  Lemma fresh_pos_same s s' : m_sc s' = m_sc s -> fresh_pos h s' = fresh_pos h s.
  Proof. intros H. unfold fresh_pos. rewrite H. reflexivity. Qed.
  Lemma fresh_rows_same s s' : m_sc s' = m_sc s -> m_hop s' = m_hop s -> fresh_rows conj h s' = fresh_rows conj h s.
  Proof. intros H1 H2. unfold fresh_rows, ind_start, sizes. rewrite H1, H2. reflexivity. Qed.

  Lemma known_eng f s : known s -> known (fst (init_orb_eng h f s)).
  Proof.
    intros [H1 H2]. split; [apply fit_eng; exact H1|]. unfold init_orb_eng. destruct f; [|destruct (m_eng s); [exact H2|]];
      destruct (fresh_eng h s); cbn [fst]; exact H2.
  Qed.
  Lemma known_pos f s : known s -> known (fst (init_orb_pos h f s)).
  Proof.
    intros [H1 H2]. split; [apply fit_pos; exact H1|]. unfold init_orb_pos. destruct f; [|destruct (m_pos s); [exact H2|]];
      destruct (fresh_pos h s); cbn [fst]; exact H2.
  Qed.
  Lemma known_hops f s : known s -> known (fst (init_hops conj h f s)).
  Proof.
    intros [H1 H2]. split; [apply fit_hops; exact H1|]. unfold init_hops. destruct (fresh_rows conj h s) as [q|x] eqn:Hq.
    - destruct f; [|destruct (m_rows s)]; cbn [fst]; intros q1 _; exists q; exact Hq.
    - replace (fst _) with s by (destruct f; [reflexivity|destruct (m_rows s); reflexivity]). rewrite Hq. exact H2.
  Qed.

  Lemma one_neq : (exists x : T, x <> s0) -> @s1 T ST <> s0.
  Proof. intros (x & Hx) H. apply Hx. transitivity (smul x s1); [ring|]. rewrite H. ring. Qed.

  Lemma sim_eng s s' : sim s s' -> sim (fst (init_orb_eng h false s)) (fst (init_orb_eng h false s')) /\
    snd (init_orb_eng h false s') = snd (init_orb_eng h false s).
  Proof.
    intros (K & H1 & H2 & H3 & H4 & H5 & H6 & H7 & H8). pose proof (known_eng false s K) as K'.
    unfold init_orb_eng in *. rewrite (fresh_eng_same s s' H1), H6 in *. destruct (m_eng s) as [e|] eqn:He; cbn [option_map].
    - cbn [fst snd]. split; [|reflexivity]. unfold sim. rewrite He. auto 10.
    - assert (Hc : m_rescale s = s1) by auto. destruct (fresh_eng h s) as [e|]; cbn [fst snd] in *.
      + split; [|reflexivity]. repeat (split; try assumption); cbn; rewrite ?Hc, ?scaled_1; auto; rewrite ?H7, ?Hc; try reflexivity.
      + split; [|reflexivity]. unfold sim. rewrite He. auto 10.
  Qed.
  Lemma sim_pos f s s' : sim s s' -> sim (fst (init_orb_pos h f s)) (fst (init_orb_pos h f s')) /\
    snd (init_orb_pos h f s') = snd (init_orb_pos h f s).
  Proof.
    intros (K & H1 & H2 & H3 & H4 & H5 & H6 & H7 & H8). pose proof (known_pos f s K) as K'.
    unfold init_orb_pos in *. rewrite (fresh_pos_same s s' H1), H3 in *.
    destruct f; [|destruct (m_pos s) eqn:Hp]; destruct (fresh_pos h s) as [e|]; cbn [fst snd] in *; (split; [|reflexivity]);
      repeat (split; try assumption); cbn; auto; congruence.
  Qed.
  Lemma sim_hops s s' : sim s s' -> sim (fst (init_hops conj h false s)) (fst (init_hops conj h false s')) /\
    snd (init_hops conj h false s') = snd (init_hops conj h false s).
  Proof.
    intros (K & H1 & H2 & H3 & H4 & H5 & H6 & H7 & H8). pose proof (known_hops false s K) as K'.
    unfold init_hops in *. rewrite (fresh_rows_same s s' H1 H2), H7 in *. destruct (m_rows s) as [e|] eqn:He; cbn [option_map].
    - cbn [fst snd]. split; [|reflexivity]. unfold sim. rewrite He. auto 10.
    - assert (Hc : m_rescale s = s1) by auto. destruct (fresh_rows conj h s) as [e|]; cbn [fst snd] in *.
      + split; [|reflexivity]. repeat (split; try assumption); cbn; rewrite <- ?Hc; auto; rewrite ?Hc, ?view_1; auto; rewrite ?H6, ?Hc; try reflexivity.
      + split; [|reflexivity]. unfold sim. rewrite He. auto 10.
  Qed.
  Lemma sim_reset s s' : @s1 T ST <> s0 -> sim s s' -> sim (fst (reset_array conj h s)) (fst (reset_array conj h s')).
  Proof.
    intros H10 (K & H1 & H2 & H3 & H4 & H5 & H6 & H7 & H8). destruct K as [F K].
    destruct (eng_fresh h s (proj1 (proj2 F))) as (engs & _ & He & _). destruct (pos_fresh h s (proj1 (proj2 F))) as (poss & _ & Hp & _).
    unfold reset_array.
    (* forced energies *)
    set (s1a := fst (when (m_eng s) (init_orb_eng h true) s)). set (s1b := fst (when (m_eng s') (init_orb_eng h true) s')).
    assert (Ea : when (m_eng s) (init_orb_eng h true) s = (s1a, Ok tt)).
    { unfold s1a, when. destruct (m_eng s); [|reflexivity]. unfold init_orb_eng. rewrite He. reflexivity. }
    assert (Eb : when (m_eng s') (init_orb_eng h true) s' = (s1b, Ok tt)).
    { unfold s1b, when. rewrite H6. destruct (m_eng s); [|reflexivity]. unfold init_orb_eng. rewrite (fresh_eng_same s s' H1), He. reflexivity. }
    unfold seq2 at 1 3. rewrite Ea, Eb. cbn [fst snd].
    assert (A1 : fit h s1a /\ m_sc s1a = m_sc s /\ m_hop s1a = m_hop s /\ m_pos s1a = m_pos s /\ m_rows s1a = m_rows s /\ m_rescale s1a = m_rescale s /\
                 m_eng s1a = option_map (fun _ => concat engs) (m_eng s)).
    { unfold s1a, when. destruct (m_eng s) eqn:Hme; [|auto 10]. split; [apply fit_eng; exact F|]. unfold init_orb_eng. rewrite He. cbn. auto 10. }
    assert (B1 : m_sc s1b = m_sc s /\ m_hop s1b = m_hop s /\ m_pos s1b = m_pos s /\ m_rows s1b = m_rows s' /\ m_rescale s1b = s1 /\
                 m_eng s1b = option_map (fun _ => concat engs) (m_eng s)).
    { unfold s1b, when. rewrite H6. destruct (m_eng s) eqn:Hme; cbn [option_map] in *; [|auto 10]. unfold init_orb_eng. rewrite (fresh_eng_same s s' H1), He. cbn. auto 10. }
    clearbody s1a s1b. clear Ea Eb. destruct A1 as (F1 & A1 & A2 & A3 & A4 & A5 & A6), B1 as (B1 & B2 & B3 & B4 & B5 & B6).
    (* forced positions *)
    set (s2a := fst (when (m_pos s) (init_orb_pos h true) s1a)). set (s2b := fst (when (m_pos s') (init_orb_pos h true) s1b)).
    assert (Ea : when (m_pos s) (init_orb_pos h true) s1a = (s2a, Ok tt)).
    { unfold s2a, when. destruct (m_pos s); [|reflexivity]. unfold init_orb_pos. rewrite (fresh_pos_same s s1a A1), Hp. reflexivity. }
    assert (Eb : when (m_pos s') (init_orb_pos h true) s1b = (s2b, Ok tt)).
    { unfold s2b, when. destruct (m_pos s'); [|reflexivity]. unfold init_orb_pos. rewrite (fresh_pos_same s s1b B1), Hp. reflexivity. }
    unfold seq2. rewrite Ea, Eb.
    assert (A : fit h s2a /\ m_sc s2a = m_sc s /\ m_hop s2a = m_hop s /\ m_rows s2a = m_rows s /\ m_rescale s2a = m_rescale s /\
                 m_eng s2a = option_map (fun _ => concat engs) (m_eng s) /\ m_pos s2a = option_map (fun _ => concat poss) (m_pos s)).
    { unfold s2a, when. destruct (m_pos s) eqn:Hme; [|cbn [fst option_map]; split; [exact F1|]; repeat (split; [congruence|]); congruence].
      split; [apply fit_pos; exact F1|]. unfold init_orb_pos. rewrite (fresh_pos_same s s1a A1), Hp. cbn. repeat (split; [congruence|]). reflexivity. }
    assert (B : m_sc s2b = m_sc s /\ m_hop s2b = m_hop s /\ m_rows s2b = m_rows s' /\ m_rescale s2b = s1 /\
                 m_eng s2b = option_map (fun _ => concat engs) (m_eng s) /\ m_pos s2b = option_map (fun _ => concat poss) (m_pos s)).
    { unfold s2b, when. rewrite H3. destruct (m_pos s) eqn:Hme; [|cbn [fst option_map]; repeat (split; [congruence|]); congruence].
      unfold init_orb_pos. rewrite (fresh_pos_same s s1b B1), Hp. cbn. repeat (split; [congruence|]). reflexivity. }
    clearbody s2a s2b. clear Ea Eb. destruct A as (F2 & C1 & C2 & C4 & C5 & C6 & C7), B as (D1 & D2 & D4 & D5 & D6 & D7).
    assert (F3 := proj1 (fit_hops conj h true s2a F2)).
    rewrite H7. destruct (m_rows s) as [q|] eqn:Hr; cbn [option_map when].
    - destruct (K q eq_refl) as (q' & Hq').
      unfold init_hops in *. rewrite (fresh_rows_same s s2a C1 C2), (fresh_rows_same s s2b D1 D2), Hq' in *. cbn [fst] in *.
      split; [split; [exact F3|intros q1 _; exists q'; change (fresh_rows conj h s2a = Ok q'); rewrite (fresh_rows_same s s2a C1 C2); exact Hq']|].
      cbn. rewrite view_1, D6, C6, D7, C7, C1, C2, D1, D2. repeat (split; [reflexivity || exact H10|]).
      split; [destruct (m_eng s); cbn [option_map]; rewrite ?scaled_1; reflexivity|]. auto.
    - assert (Hc : m_rescale s = s1) by auto. cbn [fst]. unfold sim. rewrite C1, C2, C4, C5, C6, C7, D1, D2, D4, D5, D6, D7, H7, Hc.
      split; [split; [exact F2|rewrite C4; discriminate]|]. repeat (split; [reflexivity || exact H10|]).
      split; [destruct (m_eng s); cbn [option_map]; rewrite ?scaled_1; reflexivity|]. auto.
  Qed.

  Lemma mag_scaled pos b g c rows : set_mag_field cis mag half pos b g (scale_rows inj c rows) =
    bind (set_mag_field cis mag half pos b g rows) (fun r => Ok (scale_rows inj c r)).
  Proof.
    unfold set_mag_field, scale_rows. induction rows as [|r rows IH]; [reflexivity|]. cbn [map mapM]. rewrite IH.
    replace (mag_phase mag half pos b g {| r_i := r_i r; r_j := r_j r; r_v := smul (r_v r) (inj c); r_dr := r_dr r |}) with (mag_phase mag half pos b g r) by reflexivity.
    destruct (mag_phase mag half pos b g r) as [x|]; [|reflexivity]. cbn [bind].
    destruct (mapM _ rows); [|reflexivity]. cbn [bind map]. unfold set_v. cbn [r_i r_j r_v r_dr]. do 3 f_equal. ring.
  Qed.
  Lemma k_scaled kpt c rows : build_hop_k cis (scale_rows inj c rows) kpt = scale_rows inj c (build_hop_k cis rows kpt).
  Proof.
    unfold build_hop_k, scale_rows. rewrite !map_map. apply map_ext. intros r. unfold set_v. cbn [r_i r_j r_v r_dr]. f_equal. ring.
  Qed.

  Lemma known_rows s q : known s -> (exists q0, m_rows s = Some q0) -> inside r_i r_j (m_num_orb h s) (fst q) -> known (with_rows s (Some q)).
  Proof. intros [H1 H2] (q0 & Hq) Hi. split; [apply fit_with_rows; assumption|]. intros q1 _. exact (H2 q0 Hq). Qed.

  Lemma sim_step s s' o : @s1 T ST <> s0 -> sim s s' -> calm o -> m_rescale (fst (mstep s o)) <> s0 ->
    sim (fst (mstep s o)) (mrun s' (erase o)).
  Proof.
    intros H10 Hs Hc Hz. destruct o as [[]|f|[]| |f|b g|rc k]; cbn [calm] in Hc; try contradiction;
      cbn [erase M_sample.mrun fold_left M_sample.mstep] in *.
    - apply (sim_eng s s' Hs).
    - apply (sim_pos f s s' Hs).
    - apply (sim_hops s s' Hs).
    - apply sim_reset; assumption.
    - unfold rescale_ham in *. destruct (sim_eng s s' Hs) as [Hs1 O1].
      destruct (fit_eng h false s (proj1 (proj1 Hs))) as (_ & Oe & _). rewrite (seq2_ok _ _ s Oe) in *.
      set (t := fst (init_orb_eng h false s)) in *. set (t' := fst (init_orb_eng h false s')) in *. clearbody t t'.
      destruct (sim_hops t t' Hs1) as [Hs2 O2]. unfold seq2 in *.
      destruct (init_hops conj h false t) as [u r] eqn:Hu. cbn [fst snd] in *. set (u' := fst (init_hops conj h false t')) in *. clearbody u'.
      destruct r as [[]|x]; [|exact Hs2]. unfold do_rescale in *.
      destruct (m_eng u) as [e|] eqn:He; [|exact Hs2]. destruct (m_rows u) as [[rows dt]|] eqn:Hr; [|exact Hs2].
      destruct (match f with Some f => Ok f | None => _ end) as [f'|x] eqn:Hf; [|exact Hs2]. clear Hf. cbn [fst] in *.
      destruct Hs2 as (K & H1 & H2 & H3 & H4 & H5 & H6 & H7 & H8). cbn in Hz.
      assert (Hm : smul (smul (m_rescale u) (inv f')) f' = m_rescale u).
      { transitivity (smul (m_rescale u) (smul f' (inv f'))); [ring|]. rewrite (mul_inv conj inj inv RL) by exact Hz. ring. }
      split; [|cbn; repeat (split; [assumption|])].
      + split.
        * apply fit_with_rescale. apply fit_with_rows; [apply fit_with_eng; [apply K|rewrite map_length; apply (proj1 K); exact He]|].
          cbn [fst]. apply inside_map; [intros r; split; reflexivity|]. apply (proj2 (proj2 (proj2 (proj2 (proj1 K)))) _ Hr).
        * intros q _. exact (proj2 K _ Hr).
      + rewrite H6, H7, He, Hr. cbn [option_map]. split; [|split; [|intros [Hx|Hx]; discriminate]].
        * change (Some (scaled (m_rescale u) e) = Some (scaled f' (scaled (smul (m_rescale u) (inv f')) e))). rewrite scaled_mul, Hm. reflexivity.
        * f_equal. unfold view. cbn [fst snd]. f_equal. rewrite rows_mul, Hm. reflexivity.
    - unfold set_magnetic_field in *. destruct (sim_pos false s s' Hs) as [Hs1 O1].
      destruct (fit_pos h false s (proj1 (proj1 Hs))) as (_ & Oe & _). rewrite (seq2_ok _ _ s Oe) in *. rewrite Oe in O1. rewrite (seq2_ok _ _ s' O1) in *.
      set (t := fst (init_orb_pos h false s)) in *. set (t' := fst (init_orb_pos h false s')) in *. clearbody t t'.
      destruct (sim_hops t t' Hs1) as [Hs2 O2]. unfold seq2 in *.
      destruct (init_hops conj h false t) as [u r] eqn:Hu. destruct (init_hops conj h false t') as [u' r'] eqn:Hu'. cbn [fst snd] in *. subst r'.
      destruct r as [[]|x]; [|exact Hs2]. unfold do_mag in *. destruct (negb _); [exact Hs2|]. pose proof Hs2 as Hs3.
      destruct Hs2 as (K & H1 & H2 & H3 & H4 & H5 & H6 & H7 & H8). rewrite H7, H3.
      destruct (m_rows u) as [[rows dt]|] eqn:Hr; [|exact Hs3]. cbn [option_map got bind view fst snd] in *. unfold ints in *. cbn [fst snd] in *.
      destruct dt; [|exact Hs3]. cbn [bind] in *. destruct (m_pos u) as [pos|] eqn:Hp; [|exact Hs3]. cbn [got bind] in *.
      unfold view. cbn [fst snd bind]. rewrite mag_scaled. destruct (set_mag_field cis mag half pos b g rows) as [rows'|] eqn:Hm; [|exact Hs3]. cbn [bind fst] in *.
      split; [apply known_rows; [exact K|eauto|]|].
      + cbn [fst]. eapply inside_mag; [exact Hm|]. apply (proj2 (proj2 (proj2 (proj2 (proj1 K)))) _ Hr).
      + cbn. repeat (split; [assumption || congruence|]). split; [reflexivity|]. intros [Hx|Hx]; [apply H8; left; exact Hx|discriminate].
    - unfold set_k_point in *. destruct (sim_hops s s' Hs) as [Hs2 O2]. unfold seq2 in *.
      destruct (init_hops conj h false s) as [u r] eqn:Hu. destruct (init_hops conj h false s') as [u' r'] eqn:Hu'. cbn [fst snd] in *. subst r'.
      destruct r as [[]|x]; [|exact Hs2]. unfold do_k in *. pose proof Hs2 as Hs3.
      destruct Hs2 as (K & H1 & H2 & H3 & H4 & H5 & H6 & H7 & H8). rewrite H7.
      destruct (m_rows u) as [[rows dt]|] eqn:Hr; [|exact Hs3]. cbn [option_map view fst snd] in *.
      split; [apply known_rows; [exact K|eauto|]|].
      + cbn [fst]. apply inside_map; [intros r; split; reflexivity|]. apply (proj2 (proj2 (proj2 (proj2 (proj1 K)))) _ Hr).
      + cbn. rewrite k_scaled. repeat (split; [assumption || congruence|]). split; [reflexivity|]. intros [Hx|Hx]; [apply H8; left; exact Hx|discriminate].
  Qed.

  Lemma sim_run os : @s1 T ST <> s0 -> forall s s', sim s s' -> Forall calm os ->
    (forall pre suf, os = pre ++ suf -> m_rescale (mrun s pre) <> s0) -> sim (mrun s os) (mrun s' (flat_map erase os)).
  Proof.
    intros H10. induction os as [|o os IH]; intros s s' Hs Hc Hz; [exact Hs|]. inversion Hc as [|? ? Ho Hos]; subst.
    cbn [flat_map]. unfold M_sample.mrun at 2. rewrite fold_left_app. fold (mrun s' (erase o)).
    cbn [M_sample.mrun fold_left]. apply IH; [|exact Hos|].
    - apply sim_step; try assumption. exact (Hz [o] os eq_refl).
    - intros pre suf Ep. apply (Hz (o :: pre) suf). rewrite Ep. reflexivity.
  Qed.

  Lemma sim_start s : @s1 T ST <> s0 -> fit h s -> m_eng s = None -> m_pos s = None -> m_rows s = None -> m_rescale s = s1 -> sim s s.
  Proof.
    intros H10 F H1 H2 H3 H4. split; [split; [exact F|rewrite H3; discriminate]|]. rewrite H1, H3, H4. cbn. repeat split; auto.
  Qed.

  (** Hamiltonians of related samples. *)
  Lemma site_scaled c eng i j : smul (site inj eng i j) (inj c) = site inj (scaled c eng) i j.
  Proof.
    unfold site, scaled. rewrite nth_error_map. destruct ((i =? j) && (0 <=? i)); [|ring]. destruct (nth_error eng (Z.to_nat i)); cbn [option_map]; [|ring].
    symmetry. apply (inj_mul conj inj inv RL).
  Qed.
  Lemma hop_scaled (SL : StarLaws conj) val val' c rows i j : (forall r, In r rows -> val' r = smul (val r) (inj c)) ->
    smul (hop_part conj (r_i : row -> Z) r_j val rows i j) (inj c) = hop_part conj r_i r_j val' rows i j.
  Proof.
    intros Hv. unfold hop_part. rewrite <- (esum_mul_r EL). f_equal. apply map_ext_in. intros r Hr. rewrite (Hv r Hr), (conj_mul conj SL), (inj_real conj inj inv RL).
    destruct ((r_i r =? i) && (r_j r =? j)), ((r_j r =? i) && (r_i r =? j)); ring.
  Qed.
  Lemma hop_part_scale_rows (val : row -> E) c rows i j :
    hop_part conj (r_i : row -> Z) r_j val (scale_rows inj c rows) i j =
    hop_part conj r_i r_j (fun r => val {| r_i := r_i r; r_j := r_j r; r_v := smul (r_v r) (inj c); r_dr := r_dr r |}) rows i j.
  Proof. unfold hop_part, scale_rows. rewrite map_map. reflexivity. Qed.

  Lemma sim_ham (SL : StarLaws conj) s s' recip k eng rows : sim s s' -> m_eng s = Some eng -> m_rows s = Some (rows, Int64) ->
    exists H H', sample_ham_dense conj inj cis recip k 1 s = Ok H /\ sample_ham_dense conj inj cis recip k 1 s' = Ok H' /\ forall i j, H i j = H' i j.
  Proof.
    intros Hs He Hr. destruct Hs as (K & H1 & H2 & H3 & H4 & H5 & H6 & H7 & H8). rewrite He in H6. rewrite Hr in H7. cbn [option_map view fst snd] in *.
    destruct (proj1 K) as (_ & _ & F3 & _ & F5). specialize (F3 _ He). specialize (F5 _ Hr). cbn [fst] in F5.
    destruct (dense_sample EL conj SL inj cis (inj_real conj inj inv RL) h s recip k eng rows (proj1 K) He Hr) as (H & HH & _ & HV).
    exists H. unfold sample_ham_dense. rewrite H6, H7. change (negb (1 =? 1)) with false. cbn iota. cbn [got bind ints snd fst].
    destruct (fill_ham_ok EL conj inj (scaled (m_rescale s) eng) (build_hop_k cis (scale_rows inj (m_rescale s) rows) (vmat k recip))) as (m & Hm & Hv).
    { unfold scaled. rewrite map_length, F3. apply inside_map; [split; reflexivity|]. apply inside_map; [split; reflexivity|]. exact F5. }
    unfold ints, view. cbn [fst snd bind]. rewrite Hm. cbn [bind]. eexists. split; [exact HH|]. split; [reflexivity|]. intros i j. cbv beta. rewrite HV, Hv, H4, (inj_1 conj inj inv RL).
    rewrite k_scaled. unfold ham. rewrite hop_part_scale_rows, <- (site_scaled (m_rescale s) eng).
    assert (Hp : hop_part conj (r_i : row -> Z) r_j (fun r => smul (r_v r) (inj (m_rescale s))) (build_hop_k cis rows (vmat k recip)) i j =
                 smul (hop_part conj (r_i : row -> Z) r_j (with_k cis recip k) rows i j) (inj (m_rescale s))).
    { symmetry. etransitivity; [apply (hop_scaled SL _ (fun r => smul (with_k cis recip k r) (inj (m_rescale s)))); reflexivity|].
      unfold hop_part, build_hop_k. rewrite map_map. reflexivity. }
    cbn [r_v] in *. rewrite Hp. ring.
  Qed.

  Lemma sim_inv s s' : sim s s' ->
    m_eng s = option_map (scaled (inv (m_rescale s))) (m_eng s') /\ m_rows s = option_map (view (inv (m_rescale s))) (m_rows s').
  Proof.
    intros (_ & _ & _ & _ & _ & H5 & H6 & H7 & _). rewrite H6, H7. pose proof (mul_inv conj inj inv RL _ H5) as Hi.
    split; [destruct (m_eng s) as [e|]|destruct (m_rows s) as [[rows dt]|]]; cbn [option_map]; try reflexivity; f_equal.
    - rewrite scaled_mul, Hi, scaled_1. reflexivity.
    - unfold view. cbn [fst snd]. rewrite rows_mul, Hi, rows_1. reflexivity.
  Qed.
  Lemma rescale_sets s f : snd (rescale_ham conj inj inv cabs leb h (Some f) s) = Ok tt -> m_rescale (fst (rescale_ham conj inj inv cabs leb h (Some f) s)) = f.
  Proof.
    unfold rescale_ham, seq2. destruct (init_orb_eng h false s) as [t [[]|]]; [|discriminate]. destruct (init_hops conj h false t) as [u [[]|]]; [|discriminate].
    unfold do_rescale. destruct (m_eng u); [|discriminate]. destruct (m_rows u) as [[rows dt]|]; [|discriminate]. reflexivity.
  Qed.
End Resc.

Section Resc2.
  Context {E T X L : Type} {SE : Scalar E} {ST : Scalar T} (EL : ScalarLaws E) (TL : ScalarLaws T).
  Context (conj : E -> E) (SL : StarLaws conj) (inj cis : T -> E) (inv : T -> T) (RL : RealLaws conj inj inv).
  Context (cabs : E -> T) (leb : T -> T -> bool) (mag half : T) (zero : X) (frac_of : X * X * X -> vec T) (L0 : L) (h : heap E T).
  Notation mrun := (mrun conj inj cis inv cabs leb mag half h).
  Lemma rescale_history args s1 os : @Vec.s1 T ST <> s0 -> built conj zero frac_of L0 h args s1 -> Forall calm os ->
    (forall pre suf, os = pre ++ suf -> m_rescale (mrun s1 pre) <> s0) ->
    let s := mrun s1 os in let s' := mrun s1 (flat_map erase os) in let f := m_rescale s in
    m_rescale s' = Vec.s1 /\ m_pos s = m_pos s' /\
    m_eng s = option_map (map (fun e => smul e (inv f))) (m_eng s') /\
    m_rows s = option_map (fun q => (map (fun r => {| r_i := r_i r; r_j := r_j r; r_v := smul (r_v r) (inj (inv f)); r_dr := r_dr r |}) (fst q), snd q)) (m_rows s') /\
    forall recip k eng rows, m_eng s = Some eng -> m_rows s = Some (rows, Int64) ->
      exists H H', sample_ham_dense conj inj cis recip k 1 s = Ok H /\ sample_ham_dense conj inj cis recip k 1 s' = Ok H' /\ forall i j, H i j = H' i j.
  Proof.
    intros H10 Hb Hc Hz s s' f. destruct (make_sample_ok args s1 (proj1 Hb)) as (_ & _ & _ & N1 & N2 & N3 & N4 & _).
    assert (Hs : sim conj inj h s s').
    { apply (sim_run EL TL conj inj cis inv RL cabs leb mag half h os H10); try assumption.
      apply sim_start; try assumption. exact (built_fit conj SL zero frac_of L0 inj cis inv cabs leb mag half h args s1 [] Hb). }
    pose proof (sim_inv EL TL conj inj inv RL h s s' Hs) as [I1 I2].
    split; [apply Hs|]. split; [symmetry; apply Hs|]. split; [exact I1|]. split; [exact I2|].
    intros recip k eng rows He Hr. exact (sim_ham EL conj inj cis inv RL h SL s s' recip k eng rows Hs He Hr).
  Qed.
End Resc2.

