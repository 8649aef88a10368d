(** The amplitudes of a cell built from Slater-Koster integrals over neighbours. *)
From Coq Require Import Reals Lra String.
From Verif Require Import Prelude Vec Cx L_gersh M_hop M_pc M_super M_neigh S_pc S_super S_lat S_mat S_neigh S_build S_sk M_sk P_sk S_skcell M_skcell L_super L_base L_hop L_pc L_build L_mat P_neigh P_hopdict L_skcell L_skcell2 L_skcell3.
Open Scope Z_scope.

Lemma Rleb_order : total_order Rleb.
Proof.
  split; intros a b; [rewrite !Rleb_spec; destruct (Rle_dec a b); [left; assumption|right; lra]|]. intros c. rewrite !Rleb_spec. lra.
Qed.
Lemma Rleb_false a b : Rleb a b = false <-> (b < a)%R.
Proof. pose proof (Rleb_spec a b). destruct (Rleb a b); [split; [discriminate|]; intros; exfalso; assert (a <= b)%R by (apply H; reflexivity); lra|]. split; [|reflexivity]. intros _. destruct (Rle_lt_dec a b); [|assumption]. apply H in r. discriminate. Qed.
Lemma unit_direction w : unit3 w = direction w.
Proof. destruct w as [[x y] z]. reflexivity. Qed.
Lemma direction_neg x y z : direction (- x, - y, - z)%R = (let '(a, b, c) := direction (x, y, z) in (- a, - b, - c))%R.
Proof. unfold direction. assert (E : len (- x, - y, - z)%R = len (x, y, z)) by (unfold len, inner; f_equal; ring). rewrite E. repeat apply (f_equal2 pair); unfold Rdiv; ring. Qed.
Lemma two_centre_back o o' w V : real_par V -> Cconj (two_centre o' o (direction (vopp w)) V) = two_centre o o' (direction w) V.
Proof.
  intros HV. rewrite two_centre_conj, (conj_par_real V HV). destruct w as [[x y] z]. change (vopp (x, y, z)) with (- x, - y, - z)%R. rewrite direction_neg. cbn [direction]. apply (two_centre_sym o o' (direction (x, y, z)) V).
Qed.

Section Built.
  Context (near : list (vec R) -> list (vec R) -> R -> list ((Z * Z) * R)) (Hkd : kd_tree Rleb 0%R len near).
  Context (name : string -> res string) (par : R -> res sk_par).
  Context (a0 a1 a2 : point) (s : rcell) (am bm cm : Z) (cut : R) (os : Z -> orb) (V : R -> sk_par).
  Notation lat := (a0, a1, a2).
  Context (Hlock : locked s = false) (Hhop : hop s = []) (Hne : orbs s <> []).
  Definition kind_of (i : Z) : Prop := exists o lm, nth_error (orbs s) (Z.to_nat i) = Some o /\ name (label o) = Ok lm /\ orbital lm = Some (os i).
  Context (Hkind : forall i, 0 <= i < num_orb s -> kind_of i).
  Notation C := (crystal_of (fun v : R => v) lat (abs Cconj s)).
  Definition bond_vec (r : cell) (i j : Z) : point := diff3 (x_place C r j) (x_place C (0, 0, 0) i).
  Definition bonded (r : cell) (i j : Z) : Prop := within (am, bm, cm) r /\ (0 < len (bond_vec r i j) <= cut)%R.
  Context (Hpar : forall r i j, 0 <= i < num_orb s -> 0 <= j < num_orb s -> bonded r i j ->
    par (len (bond_vec r i j)) = Ok (V (len (bond_vec r i j))) /\ real_par (V (len (bond_vec r i j))) /\ (/ 10 ^ 15 < len (bond_vec r i j))%R).

  Definition here : M_neigh.cell R := {| prim := true; c_pos := pos_nm lat s; c_lat := lat |}.
  Lemma nth_pos i p : nth_error (pos_nm lat s) i = Some p <-> exists o, nth_error (orbs s) i = Some o /\ p = vadd (vmat (position o) lat) (0, 0, 0)%R.
  Proof using.
    clear. unfold pos_nm. rewrite nth_error_map. destruct (nth_error (orbs s) i) as [o|]; cbn [option_map]; split.
    - intros H. injection H as <-. exists o. auto.
    - intros (o' & H & ->). injection H as <-. reflexivity.
    - discriminate.
    - intros (o' & H & _). discriminate.
  Qed.
  Lemma pos_bond r i j o o' : nth_error (orbs s) (Z.to_nat i) = Some o -> nth_error (orbs s) (Z.to_nat j) = Some o' ->
    vsub (vadd (vadd (vmat (position o') lat) (0, 0, 0)%R) (vmat (vZ r) lat)) (vadd (vmat (position o) lat) (0, 0, 0)%R) = bond_vec r i j.
  Proof using.
    clear. intros Hi Hj. unfold bond_vec, crystal_of. cbn [x_place abs a_orbs]. rewrite Hi, Hj. destruct (position o) as [[x y] z], (position o') as [[x' y'] z'], r as [[a b] c], a0 as [[p0 p1] p2], a1 as [[q0 q1] q2], a2 as [[r0 r1] r2].
    unfold vsub, vadd, vmat, vZ, affine, diff3. cbn [sadd ssub smul sopp RScalar sZ]. repeat apply (f_equal2 pair); ring.
  Qed.
  Lemma bond_zero i : 0 <= i < num_orb s -> bond_vec (0, 0, 0) i i = (0, 0, 0)%R.
  Proof using.
    clear. intros _. unfold bond_vec. destruct (x_place C (0, 0, 0) i) as [[x y] z]. unfold diff3. repeat apply (f_equal2 pair); ring.
  Qed.
  Lemma bond_back r i j : 0 <= i < num_orb s -> 0 <= j < num_orb s -> bond_vec (opp3 r) j i = vopp (bond_vec r i j).
  Proof using.
    clear. intros Hi Hj. assert (Hex : forall k, 0 <= k < num_orb s -> exists o, nth_error (orbs s) (Z.to_nat k) = Some o).
    { intros k Hk. destruct (nth_error (orbs s) (Z.to_nat k)) eqn:E; [eauto|]. apply nth_error_None in E. unfold num_orb in Hk. lia. }
    destruct (Hex i Hi) as (o & Ho), (Hex j Hj) as (o' & Ho'). unfold bond_vec, crystal_of. cbn [x_place abs a_orbs]. rewrite Ho, Ho'. destruct (position o) as [[x y] z], (position o') as [[x' y'] z'], r as [[a b] c], a0 as [[p0 p1] p2], a1 as [[q0 q1] q2], a2 as [[r0 r1] r2].
    unfold vopp, opp3, affine, diff3. cbn [sopp RScalar]. rewrite !opp_IZR. repeat apply (f_equal2 pair); ring.
  Qed.
  Definition amp_of (r : cell) (i j : Z) : Cplx := two_centre (os i) (os j) (direction (bond_vec r i j)) (V (len (bond_vec r i j))).
  Lemma len_opp w : len (vopp w) = len w.
  Proof using. clear. destruct w as [[x y] z]. unfold vopp, len, inner. cbn [sopp RScalar]. f_equal. ring. Qed.
  Lemma within_opp r : within (am, bm, cm) (opp3 r) <-> within (am, bm, cm) r.
  Proof using. clear. destruct r as [[x y] z]. unfold opp3, within. lia. Qed.
  Lemma amp_back r i j : 0 <= i < num_orb s -> 0 <= j < num_orb s -> bonded r i j -> Cconj (amp_of (opp3 r) j i) = amp_of r i j.
  Proof using Hpar.
    intros Hi Hj Hb. unfold amp_of. rewrite (bond_back r i j Hi Hj), len_opp. apply two_centre_back. apply (Hpar r i j Hi Hj Hb).
  Qed.
  Lemma bonded_back r i j : 0 <= i < num_orb s -> 0 <= j < num_orb s -> bonded (opp3 r) j i <-> bonded r i j.
  Proof using. clear. intros Hi Hj. unfold bonded. rewrite (bond_back r i j Hi Hj), len_opp, within_opp. tauto. Qed.

  (** The neighbours. *)
  Definition good (t : term R R) : Prop :=
    let '(i, j) := t_pair t in 0 <= i < num_orb s /\ 0 <= j < num_orb s /\ bonded (t_rn t) i j /\ t_rij t = bond_vec (t_rn t) i j /\ t_dist t = len (bond_vec (t_rn t) i j).
  Lemma neighbour_good r i j v e : neighbour Rleb 0%R len (pos_nm lat s) (pos_nm lat s) lat (am, bm, cm) cut r i j v e <-> good {| t_rn := r; t_pair := (i, j); t_rij := v; t_dist := e |}.
  Proof using.
    clear. unfold neighbour, good. cbn [t_pair t_rn t_rij t_dist]. split.
    - intros (Hw & (p & q & Hi & Hj & Hp & Hq & Hv) & Hd & H0 & Hc). apply nth_pos in Hp, Hq. destruct Hp as (o & Hp & ->), Hq as (o' & Hq & ->). rewrite (pos_bond r i j o o' Hp Hq) in Hv. subst v e.
      assert (Z.to_nat i < Datatypes.length (orbs s))%nat by (apply nth_error_Some; congruence). assert (Z.to_nat j < Datatypes.length (orbs s))%nat by (apply nth_error_Some; congruence).
      apply Rleb_false in H0. apply Rleb_spec in Hc. unfold num_orb, bonded. repeat split; try lia; try assumption.
    - intros (Hi & Hj & (Hw & H0 & Hc) & -> & ->). split; [exact Hw|].
      assert (Hex : forall k, 0 <= k < num_orb s -> exists o, nth_error (orbs s) (Z.to_nat k) = Some o).
      { intros k Hk. destruct (nth_error (orbs s) (Z.to_nat k)) eqn:E; [eauto|]. apply nth_error_None in E. unfold num_orb in Hk. lia. }
      destruct (Hex i Hi) as (o & Ho), (Hex j Hj) as (o' & Ho'). split; [|split; [reflexivity|]; split; [apply Rleb_false, H0|apply Rleb_spec, Hc]].
      exists (vadd (vmat (position o) lat) (0, 0, 0)%R), (vadd (vmat (position o') lat) (0, 0, 0)%R). split; [lia|]. split; [lia|]. split; [apply nth_pos; eauto|]. split; [apply nth_pos; eauto|]. symmetry. apply pos_bond; assumption.
  Qed.
  Definition wterm_of (t : term R R) : wterm (E := Cplx) := (t_rn t, fst (t_pair t), snd (t_pair t), amp_of (t_rn t) (fst (t_pair t)) (snd (t_pair t))).
  Lemma good_ok t : good t -> w_ok (num_orb s) (wterm_of t).
  Proof using.
    clear. unfold good, wterm_of, w_ok. destruct (t_pair t) as [i j] eqn:E. cbn [fst snd]. intros (Hi & Hj & (_ & H0 & _) & _). split; [exact Hi|]. split; [exact Hj|]. intros (Hr & ->). rewrite Hr, (bond_zero j Hj), len_zero in H0. lra.
  Qed.
  Lemma sk_terms_ok l : forall h, Forall good l -> sk_terms name par (set_hop s h) l = Ok (set_hop s (writes Cconj h (map wterm_of l))).
  Proof using Hlock Hkind Hpar.
    induction l as [|t l IH]; intros h Hg; [reflexivity|]. pose proof (Forall_inv Hg) as Ht. apply Forall_inv_tail in Hg. cbn [sk_terms map].
    assert (Hs : sk_term name par (set_hop s h) t = Ok (set_hop s (ih_add Cconj h (t_rn t) (fst (t_pair t)) (snd (t_pair t)) (amp_of (t_rn t) (fst (t_pair t)) (snd (t_pair t)))))).
    { pose proof (good_ok t Ht) as Hw. unfold good in Ht. unfold wterm_of, w_ok in Hw. unfold sk_term. destruct (t_pair t) as [i j]. cbn [fst snd] in *. destruct Ht as (Hi & Hj & Hb & Hr & Hd). destruct Hw as (_ & _ & Hz).
      destruct (Hkind i Hi) as (o & lm & Ho & Hn & Hl), (Hkind j Hj) as (o' & lm' & Ho' & Hn' & Hl').
      assert (Hlab : forall k o1, 0 <= k < num_orb s -> nth_error (orbs s) (Z.to_nat k) = Some o1 -> orb_label (set_hop s h) k = Ok (label o1)).
      { intros k o1 Hk H1. unfold orb_label, get_orbital, py_nth. cbn [orbs set_hop]. unfold num_orb in Hk. unfold py_norm. replace (0 <=? k) with true by lia. replace (k <? Z.of_nat (Datatypes.length (orbs s))) with true by lia. cbn [andb]. rewrite H1. reflexivity. }
      rewrite (Hlab i o Hi Ho), (Hlab j o' Hj Ho'). cbn [bind]. rewrite Hn, Hn'. cbn [bind]. rewrite Hd. destruct (Hpar (t_rn t) i j Hi Hj Hb) as (P1 & P2 & P3). rewrite P1. cbn [bind]. rewrite Hr.
      rewrite (C33_tensor (bond_vec (t_rn t) i j) lm lm' (os i) (os j) (V (len (bond_vec (t_rn t) i j))) Hl Hl'); [|destruct (bond_vec (t_rn t) i j) as [[x y] z]; exact P3|exact P2]. cbn [bind]. rewrite unit_direction. fold (amp_of (t_rn t) i j).
      destruct (t_rn t) as [[a b] c] eqn:Er. unfold add_hopping, check_hop_index. cbn [locked set_hop]. rewrite Hlock. cbn [check_rn]. change (num_orb (set_hop s h)) with (num_orb s).
      replace (negb ((0 <=? i) && (i <? num_orb s))) with false by lia. replace (negb ((0 <=? j) && (j <? num_orb s))) with false by lia.
      destruct (rn_eqb (a, b, c) (0, 0, 0) && (i =? j)) eqn:He; [exfalso; apply Hz; apply andb_prop in He; destruct He as [H1 H2]; apply rn_eqb_spec in H1; split; [assumption|lia]|]. reflexivity. }
    rewrite Hs. cbn [bind]. rewrite (IH _ Hg). reflexivity.
  Qed.
  Theorem built : exists s', sk_build near name par lat s am bm cm cut = Ok s' /\ orbs s' = orbs s /\ locked s' = false /\ Inv s' /\
    let c := crystal_of (fun v : R => v) lat (abs Cconj s') in
    (forall r i, x_place c r i = x_place C r i) /\ x_num c = num_orb s /\
    sk_crystal c os (fun i => match nth_error (orbs s) (Z.to_nat i) with Some o => energy o | None => Cre 0 end) V (am, bm, cm) cut.
  Proof using Hkd Hlock Hhop Hne Hkind Hpar.
    unfold sk_build. fold here. rewrite C48_default.
    destruct (C48_complete Rleb 0%R len near Rleb_order Hkd here here am bm cm cut) as (l & Hl & Hnd & Hin & _).
    { split; [reflexivity|]. intros _. cbn [here c_pos]. unfold pos_nm. split; intros H; apply Hne; destruct (orbs s); [reflexivity|discriminate|reflexivity|discriminate]. }
    rewrite Hl. cbn [bind]. cbn [here c_pos c_lat] in Hin.
    assert (Hgood : Forall good l) by (apply Forall_forall; intros [r [i j] v e] Ht; apply neighbour_good, Hin, Ht).
    pose proof (sk_terms_ok l (hop s) Hgood) as Hok. assert (Es : set_hop s (hop s) = s) by (destruct s; reflexivity). rewrite Es in Hok. rewrite Hok. eexists. split; [reflexivity|]. split; [reflexivity|]. split; [exact Hlock|].
    assert (HI : hop_ok (num_orb s) (hop s)) by (rewrite Hhop; apply hop_ok_nil).
    assert (Hf : Forall (w_ok (num_orb s)) (map wterm_of l)) by (apply Forall_map; apply Forall_forall; intros t Ht; apply good_ok; rewrite Forall_forall in Hgood; apply Hgood, Ht).
    destruct (writes_ok Cconj (conj_conj _ CStar) (num_orb s) (map wterm_of l) (hop s) HI Hf) as (W1 & W2). split; [exact W1|].
    cbv zeta. split; [reflexivity|]. split; [reflexivity|].
    assert (HW : forall r i j e, In (r, i, j, e) (map wterm_of l) <-> (0 <= i < num_orb s /\ 0 <= j < num_orb s /\ bonded r i j /\ e = amp_of r i j)).
    { intros r i j e. rewrite in_map_iff. split.
      - intros (t & Ht & Hi). rewrite Forall_forall in Hgood. specialize (Hgood t Hi). unfold good in Hgood. unfold wterm_of in Ht. destruct (t_pair t) as [i' j']. cbn [fst snd] in Ht. injection Ht as <- <- <- <-. tauto.
      - intros (Hi & Hj & Hb & ->). exists {| t_rn := r; t_pair := (i, j); t_rij := bond_vec r i j; t_dist := len (bond_vec r i j) |}. split; [reflexivity|]. apply Hin, neighbour_good. unfold good. cbn. tauto. }
    intros r i j Hi Hj. change (orbital_of C i) in Hi. change (orbital_of C j) in Hj. assert (Hi' : 0 <= i < num_orb s) by exact Hi. assert (Hj' : 0 <= j < num_orb s) by exact Hj. fold (bond_vec r i j).
    change (let w := bond_vec r i j in let bd := within (am, bm, cm) r /\ (0 < len w <= cut)%R in
      (r = (0, 0, 0) /\ i = j -> x_amp (crystal_of (fun v : R => v) lat (abs Cconj (set_hop s (writes Cconj (hop s) (map wterm_of l))))) r i j = match nth_error (orbs s) (Z.to_nat i) with Some o => energy o | None => Cre 0 end) /\
      (bd -> x_amp (crystal_of (fun v : R => v) lat (abs Cconj (set_hop s (writes Cconj (hop s) (map wterm_of l))))) r i j = amp_of r i j) /\
      (~ (r = (0, 0, 0) /\ i = j) -> ~ bd -> x_amp (crystal_of (fun v : R => v) lat (abs Cconj (set_hop s (writes Cconj (hop s) (map wterm_of l))))) r i j = Cre 0)).
    cbv zeta. fold (bonded r i j). unfold crystal_of. cbn [x_amp abs a_orbs a_hop orbs set_hop hop]. destruct r as [[a b] c].
    destruct ((a =? 0) && (b =? 0) && (c =? 0) && (i =? j)) eqn:Ez.
    - assert (a = 0 /\ b = 0 /\ c = 0 /\ i = j) as (-> & -> & -> & ->) by lia. split; [intros _; reflexivity|]. split; [|intros H; exfalso; apply H; auto].
      intros (_ & H0 & _). rewrite (bond_zero j Hj'), len_zero in H0. lra.
    - split; [intros (H1 & H2); injection H1 as -> -> ->; subst j; rewrite !Z.eqb_refl in Ez; discriminate|]. rewrite W2. split.
      + intros Hb. rewrite (last_write_agree Cconj (map wterm_of l) (a, b, c) i j (amp_of (a, b, c) i j)); [reflexivity| | |].
        * intros e H. apply HW in H. apply H.
        * intros e H. apply HW in H. destruct H as (_ & _ & _ & ->). apply amp_back; assumption.
        * right. exists (amp_of (a, b, c) i j). left. apply HW. auto.
      + intros _ Hb. rewrite last_write_none; [rewrite Hhop, get_nil; reflexivity| |].
        * intros e H. apply HW in H. tauto.
        * intros e H. apply HW in H. destruct H as (_ & _ & H & _). apply Hb. apply (bonded_back (a, b, c) i j); assumption.
  Qed.
End Built.
