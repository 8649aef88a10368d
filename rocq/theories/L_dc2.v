(** Selection of energies, DC conductivity and diffusion coefficient. *)
From Coq Require Import Reals Lra Sorted.
From Verif Require Import Prelude Vec Cx M_super M_sample M_par M_prop M_tbpm M_fft M_ana M_dc S_prop S_tbpm S_fft S_dos S_dc L_base L_super L_csr L_par L_prop L_gersh L_fft L_dft L_tbpm L_tbpm2 L_tbpm3 L_kpm L_kpm2 L_ana P_fft P_ana.
Local Open Scope R_scope.

Lemma sorted_unique (l l' : list nat) : StronglySorted lt l -> StronglySorted lt l' -> (forall k, In k l <-> In k l') -> l = l'.
Proof.
  revert l'. induction l as [|a l IH]; intros l' H H' E.
  - destruct l' as [|b l']; [reflexivity|]. exfalso. apply (proj2 (E b)). left. reflexivity.
  - destruct l' as [|b l']; [exfalso; apply (proj1 (E a)); left; reflexivity|].
    apply StronglySorted_inv in H, H'. destruct H as [Hs Hf], H' as [Hs' Hf']. rewrite Forall_forall in Hf, Hf'.
    assert (Hab : a = b).
    { destruct (proj1 (E a) (or_introl eq_refl)) as [H|H]; [congruence|]. destruct (proj2 (E b) (or_introl eq_refl)) as [H0|H0]; [congruence|].
      specialize (Hf _ H0). specialize (Hf' _ H). lia. }
    subst b. f_equal. apply IH; [assumption|assumption|]. intros k. split; intros Hk.
    + destruct (proj1 (E k) (or_intror Hk)) as [H|H]; [|exact H]. specialize (Hf _ Hk). lia.
    + destruct (proj2 (E k) (or_intror Hk)) as [H|H]; [|exact H]. specialize (Hf' _ Hk). lia.
Qed.
Lemma filter_sorted (f : nat -> bool) a len : StronglySorted lt (filter f (seq a len)).
Proof.
  revert a. induction len as [|len IH]; intros a; cbn [seq filter]; [constructor|]. destruct (f a); [|apply IH]. constructor; [apply IH|].
  apply Forall_forall. intros k Hk. apply filter_In in Hk. destruct Hk as [Hk _]. apply in_seq in Hk. lia.
Qed.
Lemma rleb_spec a b : rleb a b = true <-> a <= b.
Proof. unfold rleb. destruct (Rle_dec a b); intuition discriminate. Qed.

Definition inside_limits (n : nat) (range lo hi : R) (k : nat) : bool := rleb lo (level n range k) && rleb (level n range k) hi.
Lemma selected_eq n range lo hi sel : selected n range lo hi sel <-> sel = filter (inside_limits n range lo hi) (seq 0 (2 * n)).
Proof.
  assert (Hm : forall k, In k (filter (inside_limits n range lo hi) (seq 0 (2 * n))) <-> (k < 2 * n)%nat /\ lo <= level n range k <= hi).
  { intros k. rewrite filter_In, in_seq. unfold inside_limits. rewrite andb_true_iff, !rleb_spec. intuition lia. }
  split.
  - intros [H1 H2]. apply sorted_unique; [exact H1|apply filter_sorted|]. intros k. rewrite H2, Hm. reflexivity.
  - intros ->. split; [apply filter_sorted|exact Hm].
Qed.
Lemma where_tab lo hi N (f : nat -> R) : np_where lo hi (tab N f) = map Z.of_nat (filter (fun k => rleb lo (f k) && rleb (f k) hi) (seq 0 N)).
Proof.
  unfold np_where. rewrite tab_length. change (zrange N) with (tab N Z.of_nat). rewrite combine_tab. unfold tab.
  induction (seq 0 N) as [|k l IH]; [reflexivity|]. cbn [map filter fst snd]. destruct (rleb lo (f k) && rleb (f k) hi); cbn [map fst]; rewrite IH; reflexivity.
Qed.
Lemma energies_tab n range : (1 <= n)%nat -> dc_energies (Z.of_nat n) range = tab (2 * n) (level n range).
Proof.
  intros Hn. unfold dc_energies. replace (Z.to_nat (Z.of_nat n * 2)) with (2 * n)%nat by lia. change (zrange (2 * n)) with (tab (2 * n) Z.of_nat). rewrite map_tab. apply tab_ext.
  intros k _. unfold level. rewrite <- !INR_IZR_INZ, mult_INR. change (INR 2) with 2. assert (INR n <> 0) by (apply not_0_INR; lia). field. assumption.
Qed.
Lemma where_selected n range lo hi sel : selected n range lo hi sel -> np_where lo hi (tab (2 * n) (level n range)) = map Z.of_nat sel.
Proof. intros H. apply selected_eq in H. rewrite where_tab, H. reflexivity. Qed.
Lemma selected_lt n range lo hi sel : selected n range lo hi sel -> forall k, In k sel -> (k < 2 * n)%nat.
Proof. intros [_ H] k Hk. apply H, Hk. Qed.
Lemma read_selected {A} n range lo hi sel (f : nat -> A) : selected n range lo hi sel -> mapM (rd (tab (2 * n) f)) (map Z.of_nat sel) = Ok (map f sel).
Proof.
  intros H. pose proof (selected_lt _ _ _ _ _ H) as Hlt. clear H. induction sel as [|k sel IH]; [reflexivity|]. cbn [map mapM]. rewrite rd_tab by (apply Hlt; left; reflexivity). cbn [bind].
  rewrite IH by (intros k' Hk'; apply Hlt; right; exact Hk'). reflexivity.
Qed.
Lemma mapM_app {A B} (f : A -> res B) l l' : mapM f (l ++ l') = bind (mapM f l) (fun x => bind (mapM f l') (fun y => Ok (x ++ y))).
Proof.
  induction l as [|a l IH]; cbn [mapM app]; [destruct (mapM f l'); reflexivity|]. destruct (f a); cbn [bind]; [|reflexivity]. rewrite IH. destruct (mapM f l); cbn [bind]; [|reflexivity]. destruct (mapM f l'); reflexivity.
Qed.
Lemma mapM_ext {A B} (f g : A -> res B) l : (forall a, In a l -> f a = g a) -> mapM f l = mapM g l.
Proof. induction l as [|a l IH]; intros H; [reflexivity|]. cbn [mapM]. rewrite (H a) by (left; reflexivity). rewrite IH by (intros; apply H; right; assumption). reflexivity. Qed.

Lemma trapz_tab (y x : nat -> R) k : trapz (tab (S k) y) (tab (S k) x) = rsum k (fun i => (x (S i) - x i) * (y (S i) + y i) / 2).
Proof.
  unfold trapz. rewrite tab_length. replace (S k - 1)%nat with k by lia. unfold rsum. apply sum_ext. intros i Hi.
  assert (Hg : forall (g : nat -> R) j, (j < S k)%nat -> nth j (tab (S k) g) 0 = g j) by (intros g j Hj; exact (nth_error_nth (tab (S k) g) j 0 (tab_nth (S k) g j Hj))). rewrite !Hg by lia. reflexivity.
Qed.
Lemma firstn_tab {A} N (g : nat -> A) k : (k <= N)%nat -> firstn k (tab N g) = tab k g.
Proof. intros H. unfold tab. rewrite firstn_map. f_equal. replace N with (k + (N - k))%nat by lia. rewrite seq_app, firstn_app, seq_length, Nat.sub_diag, firstn_O, app_nil_r. apply firstn_all2. rewrite seq_length. lia. Qed.

Section Dc.
  Context (wc : Z -> Z -> R) (n : nat) (range lo hi : R) (Hn : (1 <= n)%nat) (sel : list nat) (Hsel : selected n range lo hi sel).
  Context (corr : list (list (list Cplx))) (c : nat -> nat -> nat -> Cplx) (Hc : shape3 corr 2 (length sel) n c).
  Notation dt := (2 * PI / range).
  Notation en j := (level n range (nth j sel 0%nat)).
  Notation f d j := (rotating (fun k => wc k (Z.of_nat n)) dt (en j) (c d j)).
  Lemma item_ok d j t : (d < 2)%nat -> (j < length sel)%nat -> (t < n)%nat -> item3 corr (Z.of_nat d) (Z.of_nat j) (Z.of_nat t) = Ok (c d j t).
  Proof.
    intros H1 H2 H3. destruct (Hc d j t H1 H2 H3) as (a & b & Ha & Hb & Hv). unfold item3, rd.
    destruct (Z.ltb_spec (Z.of_nat d) 0); [lia|]. rewrite Nat2Z.id, Ha. cbn [bind]. destruct (Z.ltb_spec (Z.of_nat j) 0); [lia|]. rewrite Nat2Z.id, Hb. cbn [bind]. destruct (Z.ltb_spec (Z.of_nat t) 0); [lia|]. rewrite Nat2Z.id, Hv. reflexivity.
  Qed.
  Lemma terms_ok d j : (d < 2)%nat -> (j < length sel)%nat ->
    mapM (fun k => bind (item3 corr (Z.of_nat d) (Z.of_nat j) k) (fun v => Ok (dc_term wc (Z.of_nat n) dt (en j) k v))) (zrange n) = Ok (tab n (f d j)).
  Proof.
    intros Hd Hj. change (zrange n) with (tab n Z.of_nat). apply mapM_tab. intros t Ht. rewrite item_ok by assumption. cbn [bind]. f_equal.
    unfold dc_term, rotating. f_equal. rewrite <- INR_IZR_INZ. unfold Ccis. rewrite cos_neg, sin_neg. reflexivity.
  Qed.
  Lemma two_rows {B} (g : Z -> res B) (g' : nat -> B) : (forall d, (d < 2)%nat -> g (Z.of_nat d) = Ok (g' d)) -> mapM g [0; 1]%Z = Ok (tab 2 g').
  Proof. intros H. cbn [mapM]. change (g 0%Z) with (g (Z.of_nat 0)). change (g 1%Z) with (g (Z.of_nat 1)). rewrite (H 0%nat) by lia. cbn [bind]. rewrite (H 1%nat) by lia. reflexivity. Qed.

  Lemma dc_cond_ok wd norb size spin corr_dos : 0 < range -> (n <= length corr_dos)%nat ->
    exists dos, calc_dos wd (Z.of_nat n) range spin (Cre 1 :: corr_dos) = Ok (tab (2 * n) (level n range), tab (2 * n) dos) /\
    calc_dc_cond wd wc (Z.of_nat n) range norb size lo hi spin corr_dos corr =
    Ok (map (level n range) sel, tab 2 (fun d => tab (length sel) (fun j => (if spin then 2 else 1) * (norb / size) * dt * dos (nth j sel 0%nat) * rsum n (f d j)))).
  Proof using Hn Hsel Hc.
    intros Hr Hl. eexists. split.
    - apply dos_ok; [exact Hn|exact Hr|cbn [length]; lia|]. exists (Cre 1). split; [reflexivity|]. intros E. apply (f_equal fst) in E. cbn in E. lra.
    - unfold calc_dc_cond. rewrite (dos_ok wd n (Cre 1 :: corr_dos) range Hn Hr ltac:(cbn [length]; lia) spin) by (exists (Cre 1); split; [reflexivity|]; intros E; apply (f_equal fst) in E; cbn in E; lra). cbn [bind].
      rewrite (where_selected n range lo hi sel Hsel), (read_selected n range lo hi sel _ Hsel). cbn [bind]. rewrite map_length. change (zrange (length sel)) with (tab (length sel) Z.of_nat).
      match goal with |- context [tab (2 * n) ?g] => match g with level n range => fail 1 | _ => set (dos := g) end end.
      rewrite (two_rows _ (fun d => tab (length sel) (fun j => (if spin then 2 else 1) * (norb / size) * dt * dos (nth j sel 0%nat) * rsum n (f d j)))).
      + cbn [bind]. reflexivity.
      + intros d Hd. apply mapM_tab. intros j Hj. rewrite (rdz (map (level n range) sel) (level n range 0%nat)) by (rewrite map_length; lia). rewrite map_nth. cbn [bind].
        rewrite (rdz (map Z.of_nat sel) (Z.of_nat 0)) by (rewrite map_length; lia). rewrite map_nth. cbn [bind]. rewrite !Nat2Z.id.
        rewrite rd_tab by (apply (selected_lt n range lo hi sel Hsel), nth_In, Hj). cbn [bind]. rewrite terms_ok by assumption. cbn [bind]. f_equal. unfold dc_prefactor.
        change (esum (tab n (f d j))) with (rsum n (f d j)). destruct spin; ring.
  Qed.

  Lemma diff_ok : calc_diff_coeff wc (Z.of_nat n) range lo hi corr =
    Ok (tab n (fun k => INR k * dt), tab 2 (fun d => tab (length sel) (fun j => tab n (fun k => rsum k (fun i => dt * (f d j (S i) + f d j i) / 2))))).
  Proof using Hn Hsel Hc.
    unfold calc_diff_coeff. rewrite energies_tab by exact Hn. rewrite (where_selected n range lo hi sel Hsel), (read_selected n range lo hi sel _ Hsel). cbn [bind]. rewrite map_length.
    change (zrange (length sel)) with (tab (length sel) Z.of_nat). set (time := map _ (zrange _)).
    assert (Htime : time = tab n (fun k => INR k * dt)).
    { unfold time. rewrite Nat2Z.id. change (zrange n) with (tab n Z.of_nat). rewrite map_tab. apply tab_ext. intros k _. rewrite <- INR_IZR_INZ. reflexivity. }
    rewrite (two_rows _ (fun d => tab (length sel) (fun j => tab n (fun k => rsum k (fun i => dt * (f d j (S i) + f d j i) / 2))))).
    - cbn [bind]. rewrite Htime. reflexivity.
    - intros d Hd. apply mapM_tab. intros j Hj. rewrite (rdz (map (level n range) sel) (level n range 0%nat)) by (rewrite map_length; lia). rewrite map_nth. cbn [bind]. rewrite !Nat2Z.id.
      rewrite terms_ok by assumption. cbn [bind]. f_equal. change (zrange n) with (tab n Z.of_nat). rewrite map_tab. apply tab_ext. intros k Hk. rewrite Nat2Z.id, Htime, !firstn_tab by lia. rewrite trapz_tab. apply sum_ext. intros i Hi.
      rewrite S_INR. unfold Rdiv. ring.
  Qed.
End Dc.
