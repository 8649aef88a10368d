(** Spin-orbit coupling (C35): the tables, symmetries and spectrum. *)
From Coq Require Import Reals Lra String.
From Verif Require Import Prelude Vec Cx M_soc S_sk S_soc P_soc.
Local Open Scope R_scope.
Local Open Scope string_scope.

Lemma legal_dec i si j sj : legal i si j sj \/ ~ legal i si j sj.
Proof.
  unfold legal. destruct (orbital i), (spin si), (orbital j), (spin sj).
  1: left; repeat split; discriminate. all: right; intros (A & B & C & D); congruence.
Qed.
Definition data_nf : list ((string * string) * mat2) :=
  Eval cbv [data data2 data0 fold_left aset pair_eqb String.eqb Ascii.eqb Bool.eqb andb fst snd] in data.
Lemma data_nf_eq : data = data_nf.
Proof. reflexivity. Qed.
Lemma table2_spec i si j sj oi oj a b : orbital i = Some oi -> spin si = Some a -> orbital j = Some oj -> spin sj = Some b -> soc_table2_eval i si j sj = Ok (l_s oi a oj b).
Proof.
  intros Hi Hsi Hj Hsj. unfold soc_table2_eval. rewrite check_ok by (repeat split; congruence).
  assert (Li : In i labels) by (apply orbital_label; congruence). assert (Lj : In j labels) by (apply orbital_label; congruence).
  assert (Si : si = "up" \/ si = "down") by (apply spin_label; congruence). assert (Sj : sj = "up" \/ sj = "down") by (apply spin_label; congruence).
  assert (Q5 : sqrt 3 * sqrt 3 = 3) by (apply sqrt_sqrt; lra).
  all_pairs Li Lj Si Sj; cbn in Hi, Hj, Hsi, Hsj; injection Hi as <-; injection Hj as <-; injection Hsi as <-; injection Hsj as <-.
  all: rewrite data_nf_eq; unfold data_nf; cbn [aget pair_eqb String.eqb Ascii.eqb Bool.eqb andb fst snd]; apply f_equal; unfold s_x, s_y, s_z, mneg, mscale; cbn [fst snd].
  all: revert Q5; clear; unfold l_s, turn, pair, tr2, dot3, app3, sum3, gen; generalize (sqrt 3); intros s3 Q5.
  all: apply Ceq; cbn -[Rmult Rplus Rminus Ropp Rdiv Rinv IZR pow]; field [Q5].
Qed.
(** SOC and SOCTable2 agree exactly, on legal and illegal arguments. *)
Theorem C35_table2 : forall i si j sj, soc_table2_eval i si j sj = soc_eval i si j sj.
Proof.
  intros i si j sj. destruct (legal_dec i si j sj) as [H|H].
  - destruct H as (H1 & H2 & H3 & H4). destruct (orbital i) as [oi|] eqn:E1; [|congruence]. destruct (spin si) as [a|] eqn:E2; [|congruence]. destruct (orbital j) as [oj|] eqn:E3; [|congruence]. destruct (spin sj) as [b|] eqn:E4; [|congruence].
    rewrite (table2_spec _ _ _ _ _ _ _ _ E1 E2 E3 E4), (C35_spec _ _ _ _ _ _ _ _ E1 E2 E3 E4). reflexivity.
  - unfold soc_table2_eval, soc_eval. rewrite !check_bad by exact H. reflexivity.
Qed.
Print Assumptions C35_table2.
Theorem C35_illegal : forall i si j sj, orbital i = None \/ spin si = None \/ orbital j = None \/ spin sj = None ->
  soc_eval i si j sj = Err ValueError /\ soc_table_eval i si j sj = Err ValueError /\ soc_table2_eval i si j sj = Err ValueError.
Proof. intros i si j sj H. assert (N : ~ legal i si j sj) by (unfold legal; tauto). unfold soc_eval, soc_table_eval, soc_table2_eval. rewrite !check_bad by exact N. repeat split. Qed.
Print Assumptions C35_illegal.
(** SOCTable agrees with them up to the rounding of its literals. *)
Lemma Rabs_le_both x a : Rabs x <= a -> - a <= x <= a.
Proof. intros H. unfold Rabs in H. destruct (Rcase_abs x); lra. Qed.
Lemma root_close : Rabs (root_dec - sqrt 3 / 2) <= 2 / 10000000000000000.
Proof.
  set (h := sqrt 3 / 2). assert (H2 : h * h = 3 / 4). { unfold h. replace (sqrt 3 / 2 * (sqrt 3 / 2)) with (sqrt 3 * sqrt 3 / 4) by field. rewrite sqrt_sqrt by lra. reflexivity. }
  assert (H0 : 0 <= h). { unfold h. pose proof (sqrt_pos 3). lra. } clearbody h. unfold root_dec. apply Rabs_le.
  assert (A : h <= 8660254037844388 / 10000000000000000). { apply Rnot_lt_le. intros L. assert (8660254037844388 / 10000000000000000 * (8660254037844388 / 10000000000000000) < h * h) by (apply Rmult_le_0_lt_compat; lra). lra. }
  assert (B : 8660254037844384 / 10000000000000000 <= h). { apply Rnot_lt_le. intros L. assert (h * h < 8660254037844384 / 10000000000000000 * (8660254037844384 / 10000000000000000)) by (apply Rmult_le_0_lt_compat; lra). lra. }
  lra.
Qed.
Definition near (z w : Cplx) : Prop := Rabs (fst z - fst w) <= 2 / 10000000000000000 /\ Rabs (snd z - snd w) <= 2 / 10000000000000000.
Theorem C35_table : forall i si j sj v, soc_eval i si j sj = Ok v -> exists w, soc_table_eval i si j sj = Ok w /\ near w v.
Proof.
  intros i si j sj v H. rewrite <- C35_table2 in H.
  assert (L : legal i si j sj). { destruct (legal_dec i si j sj) as [L|L]; [exact L|]. unfold soc_table2_eval in H. rewrite check_bad in H by exact L. discriminate. }
  unfold soc_table2_eval in H. rewrite (check_ok _ _ _ _ _ L), data_nf_eq in H. unfold soc_table_eval. rewrite (check_ok _ _ _ _ _ L).
  destruct L as (H1 & H2 & H3 & H4). apply orbital_label in H1, H3. apply spin_label in H2, H4.
  pose proof root_close as RC. apply Rabs_le_both in RC.
  all_pairs H1 H3 H2 H4; unfold data_nf in H; cbn [aget pair_eqb String.eqb Ascii.eqb Bool.eqb andb fst snd s_x s_y s_z mneg mscale] in H; apply (f_equal (fun t => match t with Ok g => g | Err _ => Cre 0 end)) in H; subst v.
  all: eexists; split; [cbn -[Rmult Rplus Rminus Ropp Rdiv Rinv IZR pow sqrt half_dec one_dec root_dec]; reflexivity|].
  all: revert RC; clear; unfold near; cbn -[Rmult Rplus Rminus Ropp Rdiv Rinv IZR pow sqrt half_dec one_dec root_dec Rabs]; generalize (sqrt 3); intros s3 RC; unfold half_dec, one_dec; split; apply Rabs_le; lra.
Qed.
Print Assumptions C35_table.

(** ** Symmetries *)
Definition conj_res (t : res Cplx) : res Cplx := match t with Ok z => Ok (Cconj z) | Err e => Err e end.
Lemma pair_anti k o o' : pair o (turn k o') = - pair o' (turn k o).
Proof.
  destruct o as [|e|D], o' as [|e'|D']; cbn [pair turn]; try (unfold dot3, sum3; cbn [comp fst snd]; ring).
  - assert (X : forall i j, gen k i j = - gen k j i). { intros i j. unfold gen, eps. destruct i as [|[|[|i]]], k as [|[|[|k]]], j as [|[|[|j]]]; ring. }
    unfold dot3, app3, sum3. cbn [comp fst snd].
    assert (D0 : forall i, gen k i i = 0) by (intros i; pose proof (X i i); lra). rewrite !D0, (X 1%nat 0%nat), (X 2%nat 0%nat), (X 2%nat 1%nat). ring.
  - unfold tr2, sum3. ring.
Qed.
Lemma half_pauli_adj k s s' : half_pauli k s s' = Cconj (half_pauli k s' s).
Proof. destruct k as [|[|k]], s, s'; apply Ceq; cbn; ring. Qed.
Lemma l_s_adj o s o' s' : l_s o s o' s' = Cconj (l_s o' s' o s).
Proof.
  unfold l_s. rewrite (pair_anti 0 o o'), (pair_anti 1 o o'), (pair_anti 2 o o'), (half_pauli_adj 0), (half_pauli_adj 1), (half_pauli_adj 2).
  generalize (pair o' (turn 0 o)) (pair o' (turn 1 o)) (pair o' (turn 2 o)) (half_pauli 0 s' s) (half_pauli 1 s' s) (half_pauli 2 s' s). intros a b c [x x'] [y y'] [z z']. apply Ceq; cbn; ring.
Qed.
Lemma soc_cases i si j sj (P : res Cplx -> res Cplx -> Prop) :
  (forall oi oj a b, orbital i = Some oi -> spin si = Some a -> orbital j = Some oj -> spin sj = Some b -> P (Ok (l_s oi a oj b)) (Ok (l_s oj b oi a))) -> P (Err ValueError) (Err ValueError) ->
  P (soc_eval i si j sj) (soc_eval j sj i si).
Proof.
  intros HP HE. destruct (legal_dec i si j sj) as [H|H].
  - destruct H as (H1 & H2 & H3 & H4). destruct (orbital i) as [oi|] eqn:E1; [|congruence]. destruct (spin si) as [a|] eqn:E2; [|congruence]. destruct (orbital j) as [oj|] eqn:E3; [|congruence]. destruct (spin sj) as [b|] eqn:E4; [|congruence].
    rewrite (C35_spec _ _ _ _ _ _ _ _ E1 E2 E3 E4), (C35_spec _ _ _ _ _ _ _ _ E3 E4 E1 E2). apply HP; reflexivity || assumption.
  - unfold soc_eval. rewrite !check_bad; [exact HE| |exact H]. unfold legal in *. tauto.
Qed.
Theorem C35_hermitian : forall i si j sj, soc_eval i si j sj = conj_res (soc_eval j sj i si) /\ soc_table2_eval i si j sj = conj_res (soc_table2_eval j sj i si) /\ soc_table_eval i si j sj = conj_res (soc_table_eval j sj i si).
Proof.
  intros i si j sj. rewrite !C35_table2. assert (A : soc_eval i si j sj = conj_res (soc_eval j sj i si)).
  { apply soc_cases; [|reflexivity]. intros. cbn [conj_res]. rewrite <- l_s_adj. reflexivity. }
  split; [exact A|]. split; [exact A|]. destruct (legal_dec i si j sj) as [L|L].
  - assert (L' : legal j sj i si) by (unfold legal in *; tauto). unfold soc_table_eval. rewrite (check_ok _ _ _ _ _ L), (check_ok _ _ _ _ _ L').
    destruct L as (H1 & H2 & H3 & H4). clear L' A. apply orbital_label in H1, H3. apply spin_label in H2, H4.
    all_pairs H1 H3 H2 H4; cbn -[Rmult Rplus Rminus Ropp Rdiv Rinv IZR pow sqrt half_dec one_dec root_dec Cconj Cmul]; apply f_equal; apply Ceq; cbn -[half_dec one_dec root_dec]; ring.
  - unfold soc_table_eval. rewrite !check_bad; [reflexivity| |exact L]. unfold legal in *. tauto.
Qed.
Print Assumptions C35_hermitian.
(** Time reversal flips both spins, with a sign for unlike ones, and conjugates. *)
Definition flip (s : string) : string := if s =? "up" then "down" else if s =? "down" then "up" else s.
Lemma half_pauli_flip k s s' : half_pauli k (negb s) (negb s') = (if Bool.eqb s s' then Copp (Cconj (half_pauli k s s')) else Cconj (half_pauli k s s')).
Proof. destruct k as [|[|k]], s, s'; apply Ceq; cbn; ring. Qed.
Lemma spin_flip s a : spin s = Some a -> spin (flip s) = Some (negb a).
Proof. unfold spin, flip. destruct (s =? "up"); [intros [= <-]; reflexivity|]. destruct (s =? "down"); [intros [= <-]; reflexivity|discriminate]. Qed.
Theorem C35_time_reversal : forall i si j sj v, soc_eval i si j sj = Ok v ->
  soc_eval i (flip si) j (flip sj) = Ok (if si =? sj then Cconj v else Copp (Cconj v)).
Proof.
  intros i si j sj v H.
  assert (L : legal i si j sj). { destruct (legal_dec i si j sj) as [L|L]; [exact L|]. unfold soc_eval in H. rewrite check_bad in H by exact L. discriminate. }
  destruct L as (H1 & H2 & H3 & H4). destruct (orbital i) as [oi|] eqn:E1; [|congruence]. destruct (spin si) as [a|] eqn:E2; [|congruence]. destruct (orbital j) as [oj|] eqn:E3; [|congruence]. destruct (spin sj) as [b|] eqn:E4; [|congruence].
  rewrite (C35_spec _ _ _ _ _ _ _ _ E1 E2 E3 E4) in H. rewrite (C35_spec _ _ _ _ _ _ _ _ E1 (spin_flip _ _ E2) E3 (spin_flip _ _ E4)). apply f_equal.
  apply (f_equal (fun t => match t with Ok g => g | Err _ => Cre 0 end)) in H. subst v.
  assert (Es : (si =? sj) = Bool.eqb a b). { revert E2 E4. unfold spin. destruct (String.eqb_spec si "up") as [->|N1]; [|destruct (String.eqb_spec si "down") as [->|N2]; [|discriminate]]; (destruct (String.eqb_spec sj "up") as [->|N3]; [|destruct (String.eqb_spec sj "down") as [->|N4]; [|discriminate]]); intros [= <-] [= <-]; reflexivity. }
  rewrite Es. unfold l_s. rewrite !half_pauli_flip.
  generalize (pair oi (turn 0 oj)) (pair oi (turn 1 oj)) (pair oi (turn 2 oj)) (half_pauli 0 a b) (half_pauli 1 a b) (half_pauli 2 a b). intros p q r [x x'] [y y'] [z z']. destruct (Bool.eqb a b); apply Ceq; cbn; ring.
Qed.
Print Assumptions C35_time_reversal.
