(** Lemmas about saving and loading the arrays of samples, and about setting
    k-points. *)
From Verif Require Import Prelude Vec L_base M_hop M_inter M_index M_super M_bloch M_sample Cx.

Section Save.
  Context {E T : Type} {SE : Scalar E} {ST : Scalar T}.
  Definition nodisk : disk E T := {| d_eng := None; d_pos := None; d_rows := None |}.
  (** The factor is 1 as long as there are no hoppings. *)
  Definition unscaled (s : sample E T) : Prop := m_rows s = None -> m_rescale s = s1.

  Context (conj : E -> E) (inj cis : T -> E) (inv : T -> T) (cabs : E -> T) (leb : T -> T -> bool) (mag half : T) (h : heap E T).
  Notation mstep := (mstep conj inj cis inv cabs leb mag half h).
  Notation mrun := (mrun conj inj cis inv cabs leb mag half h).

  Lemma uns_eng f s : unscaled s -> unscaled (fst (init_orb_eng h f s)).
  Proof. intros H. unfold init_orb_eng. destruct f; [|destruct (m_eng s); [exact H|]]; destruct (fresh_eng h s); exact H. Qed.
  Lemma uns_pos f s : unscaled s -> unscaled (fst (init_orb_pos h f s)).
  Proof. intros H. unfold init_orb_pos. destruct f; [|destruct (m_pos s); [exact H|]]; destruct (fresh_pos h s); exact H. Qed.
  Lemma uns_hops f s : unscaled s -> unscaled (fst (init_hops conj h f s)).
  Proof. intros H. unfold init_hops. destruct f; [|destruct (m_rows s); [exact H|]]; destruct (fresh_rows conj h s); try exact H; intros Hn; discriminate. Qed.
  Lemma uns_seq2 (f g : sample E T -> sample E T * res unit) s : unscaled (fst (f s)) -> (forall t, unscaled t -> unscaled (fst (g t))) -> unscaled (fst (seq2 f g s)).
  Proof. intros H1 H2. unfold seq2. destruct (f s) as [t r]. cbn [fst] in H1. destruct r; [apply H2; exact H1|exact H1]. Qed.
  Lemma uns_when {A} (o : option A) (f : sample E T -> sample E T * res unit) s : unscaled s -> (forall t, unscaled t -> unscaled (fst (f t))) -> unscaled (fst (when o f s)).
  Proof. intros H1 H2. destruct o; [apply H2; exact H1|exact H1]. Qed.
  Lemma uns_step s o : unscaled s -> unscaled (fst (mstep s o)).
  Proof.
    intros H. destruct o as [f|f|f| |f|b g|rc k]; cbn [M_sample.mstep].
    - apply uns_eng; exact H.
    - apply uns_pos; exact H.
    - apply uns_hops; exact H.
    - unfold reset_array. apply uns_seq2; [apply uns_when; [exact H|apply uns_eng]|]. intros t Ht. apply uns_seq2; [apply uns_when; [exact Ht|apply uns_pos]|].
      intros u Hu. apply uns_when; [exact Hu|apply uns_hops].
    - unfold rescale_ham. apply uns_seq2; [apply uns_eng; exact H|]. intros t Ht. apply uns_seq2; [apply uns_hops; exact Ht|].
      intros u Hu. unfold do_rescale. destruct (m_eng u); [|exact Hu]. destruct (m_rows u) as [[rows dt]|]; [|exact Hu].
      destruct (match f with Some _ => _ | None => _ end); [intros Hn; discriminate|exact Hu].
    - unfold set_magnetic_field. apply uns_seq2; [apply uns_pos; exact H|]. intros t Ht. apply uns_seq2; [apply uns_hops; exact Ht|].
      intros u Hu. unfold do_mag. destruct (negb _); [exact Hu|]. destruct (bind _ _); [intros Hn; discriminate|exact Hu].
    - unfold set_k_point. apply uns_seq2; [apply uns_hops; exact H|]. intros t Ht. unfold do_k. destruct (m_rows t) as [[rows dt]|]; [intros Hn; discriminate|exact Ht].
  Qed.
  Lemma uns_run os : forall s, unscaled s -> unscaled (mrun s os).
  Proof. induction os as [|o os IH]; intros s H; [exact H|]. cbn [M_sample.mrun fold_left]. apply IH. apply uns_step. exact H. Qed.

  Lemma save_load (s t : sample E T) (d : disk E T) eng pos rows :
    m_sc t = m_sc s -> m_hop t = m_hop s -> m_eng s = Some eng -> m_pos s = Some pos -> m_rows s = Some rows -> load_array (save_array s d) t = s.
  Proof.
    intros H1 H2 H3 H4 H5. unfold load_array, save_array. cbn [d_eng d_pos d_rows]. rewrite H1, H2, H3, H4, H5.
    destruct s as [sc hp e p r f]. cbn [m_sc m_hop m_eng m_pos m_rows m_rescale] in *. subst. reflexivity.
  Qed.
  Lemma save_load_fresh (s t : sample E T) :
    m_sc t = m_sc s -> m_hop t = m_hop s -> m_eng t = None -> m_pos t = None -> m_rows t = None -> m_rescale t = s1 -> unscaled s ->
    load_array (save_array s nodisk) t = s.
  Proof.
    intros H1 H2 H3 H4 H5 H6 Hu. unfold load_array, save_array. cbn [d_eng d_pos d_rows nodisk]. rewrite H1, H2, H3, H4, H5, H6. unfold unscaled in Hu.
    destruct s as [sc hp [e|] [p|] [r|] f]; cbn [m_sc m_hop m_eng m_pos m_rows m_rescale] in *; try reflexivity; rewrite (Hu eq_refl); reflexivity.
  Qed.
  Lemma save_twice (s : sample E T) d : save_array s (save_array s d) = save_array s d.
  Proof. unfold save_array. cbn [d_eng d_pos d_rows]. destruct (m_eng s), (m_pos s), (m_rows s); reflexivity. Qed.
  Lemma load_twice (s : sample E T) d : load_array d (load_array d s) = load_array d s.
  Proof. unfold load_array. cbn [m_sc m_hop m_eng m_pos m_rows m_rescale]. destruct (d_eng d), (d_pos d), (d_rows d) as [[x f]|]; reflexivity. Qed.

  (** ** k-points *)
  Context (EL : ScalarLaws E) (TL : ScalarLaws T) (tau : T) (PL : PhaseLaws conj cis tau).
  Add Ring Er6 : (s_ring E EL).
  Add Ring Tr6 : (s_ring T TL).
  Lemma k_add (a b d : vec T) : k_phase (vadd a b) d = sadd (k_phase a d) (k_phase b d).
  Proof. destruct a as [[a0 a1] a2], b as [[b0 b1] b2], d as [[x y] z]. cbn. ring. Qed.
  Lemma vmat_add (a b : vec T) m : vmat (vadd a b) m = vadd (vmat a m) (vmat b m).
  Proof.
    destruct a as [[a0 a1] a2], b as [[b0 b1] b2], m as [[[[x0 y0] z0] [[x1 y1] z1]] [[x2 y2] z2]]. cbn.
    f_equal; [f_equal|]; ring.
  Qed.
  Lemma hop_k_twice (rows : list (M_super.row E T)) a b : build_hop_k cis (build_hop_k cis rows a) b = build_hop_k cis rows (vadd a b).
  Proof.
    unfold build_hop_k. rewrite map_map. apply map_ext. intros r. unfold set_v. cbn [r_i r_j r_v r_dr]. f_equal.
    rewrite k_add, (cis_add _ _ _ PL). ring.
  Qed.
  Lemma set_k_twice s recip k1 k2 rows : m_rows s = Some rows ->
    set_k_point conj cis h recip k2 (fst (set_k_point conj cis h recip k1 s)) = set_k_point conj cis h recip (vadd k1 k2) s.
  Proof.
    intros H. unfold set_k_point, seq2, init_hops. rewrite H. unfold do_k. rewrite H. destruct rows as [rows dt].
    cbn [fst m_rows with_rows]. rewrite hop_k_twice, vmat_add. reflexivity.
  Qed.
End Save.
