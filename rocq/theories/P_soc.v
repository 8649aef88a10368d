(** Spin-orbit coupling (C35). *)
From Coq Require Import Reals Lra String.
From Verif Require Import Prelude Vec Cx M_soc S_sk S_soc.
Local Open Scope R_scope.
Local Open Scope string_scope.

Lemma is_label_orbital l : is_label l = match orbital l with Some _ => true | None => false end.
Proof.
  unfold is_label, orbital. cbn [existsb]. cbv zeta.
  destruct (String.eqb_spec l "s") as [->|_]; [reflexivity|]. destruct (String.eqb_spec l "px") as [->|_]; [reflexivity|]. destruct (String.eqb_spec l "py") as [->|_]; [reflexivity|].
  destruct (String.eqb_spec l "pz") as [->|_]; [reflexivity|]. destruct (String.eqb_spec l "dxy") as [->|_]; [reflexivity|]. destruct (String.eqb_spec l "dyz") as [->|_]; [reflexivity|].
  destruct (String.eqb_spec l "dzx") as [->|_]; [reflexivity|]. destruct (String.eqb_spec l "dx2-y2") as [->|_]; [reflexivity|]. destruct (String.eqb_spec l "dz2") as [->|_]; reflexivity.
Qed.
Lemma is_spin_spin s : is_spin s = match spin s with Some _ => true | None => false end.
Proof. unfold is_spin, spin. cbn [existsb]. destruct (s =? "up"); [reflexivity|]. destruct (s =? "down"); reflexivity. Qed.
Definition legal (i si j sj : string) : Prop := orbital i <> None /\ spin si <> None /\ orbital j <> None /\ spin sj <> None.
Lemma check_ok {A} i si j sj (t : res A) : legal i si j sj -> check_soc i si j sj t = t.
Proof.
  intros (A1 & A2 & A3 & A4). unfold check_soc. rewrite !is_label_orbital, !is_spin_spin. destruct (orbital i); [|congruence]. destruct (orbital j); [|congruence]. destruct (spin si); [|congruence]. destruct (spin sj); [reflexivity|congruence].
Qed.
Lemma check_bad {A} i si j sj (t : res A) : ~ legal i si j sj -> check_soc i si j sj t = Err ValueError.
Proof.
  intros H. unfold legal in H. unfold check_soc. rewrite !is_label_orbital, !is_spin_spin.
  destruct (orbital i) eqn:E1; [|reflexivity]. destruct (orbital j) eqn:E2; [|reflexivity]. destruct (spin si) eqn:E3; [|reflexivity]. destruct (spin sj) eqn:E4; [|reflexivity]. exfalso. apply H. repeat split; discriminate.
Qed.
Definition labels : list string := ["s"; "px"; "py"; "pz"; "dxy"; "dyz"; "dzx"; "dx2-y2"; "dz2"]%list.
Lemma orbital_label l : orbital l <> None -> In l labels.
Proof.
  unfold orbital, labels. cbv zeta. repeat match goal with |- (if String.eqb l ?s then _ else _) <> _ -> _ => destruct (String.eqb_spec l s) as [->|_]; [intros _; cbn [In]; tauto|] end. congruence.
Qed.
Lemma spin_label s : spin s <> None -> s = "up" \/ s = "down".
Proof. unfold spin. destruct (String.eqb_spec s "up") as [->|_]; [tauto|]. destruct (String.eqb_spec s "down") as [->|_]; [tauto|]. congruence. Qed.
Lemma sqrt_half : sqrt (1 / 2) = sqrt 2 / 2.
Proof.
  apply Rsqr_inj; [apply sqrt_pos| |]. { pose proof (sqrt_pos 2). lra. } unfold Rsqr. rewrite sqrt_sqrt by lra. replace (sqrt 2 / 2 * (sqrt 2 / 2)) with (sqrt 2 * sqrt 2 / 4) by field. rewrite sqrt_sqrt by lra. field.
Qed.
Lemma sqrt_four : sqrt 4 = 2.
Proof. replace 4 with (2 * 2) by ring. apply sqrt_square. lra. Qed.
Lemma sqrt_six : sqrt 6 = sqrt 2 * sqrt 3.
Proof. replace 6 with (2 * 3) by ring. apply sqrt_mult; lra. Qed.

(** ** The three classes *)
Ltac all_pairs Li Lj Si Sj :=
  unfold labels in Li, Lj; cbn [In] in Li, Lj;
  repeat (destruct Li as [<-|Li]); [..|destruct Li]; (repeat (destruct Lj as [<-|Lj]); [..|destruct Lj]);
  (destruct Si as [->| ->]); (destruct Sj as [->| ->]).
Theorem C35_spec : forall (i si j sj : string) (oi oj : orb) (a b : bool),
  orbital i = Some oi -> spin si = Some a -> orbital j = Some oj -> spin sj = Some b ->
  soc_eval i si j sj = Ok (l_s oi a oj b).
Proof.
  intros i si j sj oi oj a b Hi Hsi Hj Hsj. unfold soc_eval. rewrite check_ok by (repeat split; congruence).
  assert (Li : In i labels) by (apply orbital_label; congruence). assert (Lj : In j labels) by (apply orbital_label; congruence).
  assert (Si : si = "up" \/ si = "down") by (apply spin_label; congruence). assert (Sj : sj = "up" \/ sj = "down") by (apply spin_label; congruence).
  pose proof sqrt_half as Q1. pose proof sqrt_four as Q2. pose proof sqrt_six as Q3. assert (Q4 : sqrt 2 * sqrt 2 = 2) by (apply sqrt_sqrt; lra). assert (Q5 : sqrt 3 * sqrt 3 = 3) by (apply sqrt_sqrt; lra).
  all_pairs Li Lj Si Sj; cbn in Hi, Hj, Hsi, Hsj; injection Hi as <-; injection Hj as <-; injection Hsi as <-; injection Hsj as <-.
  all: cbn -[Rmult Rplus Rminus Ropp Rdiv Rinv IZR pow sqrt Cmul Cadd Cconj Copp Cre l_s]; apply f_equal.
  all: rewrite ?Q1, ?Q2, ?Q3; revert Q4 Q5; clear; unfold l_s, turn, pair, tr2, dot3, app3, sum3, gen; generalize (sqrt 2) (sqrt 3); intros s2 s3 Q4 Q5.
  all: apply Ceq; cbn -[Rmult Rplus Rminus Ropp Rdiv Rinv IZR pow]; field [Q4 Q5].
Qed.
Print Assumptions C35_spec.
