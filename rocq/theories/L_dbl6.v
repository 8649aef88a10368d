(** Couplings are large or vanish; cells made by merging and by relabelling are
    made by a history of operations. *)
From Coq Require Import Reals Lra String.
From Verif Require Import Prelude Vec Cx L_gersh M_hop M_pc M_index M_super M_build M_lat S_pc S_super S_build S_lat S_mat S_sk S_soc M_soc M_neigh M_skcell S_dbl L_base L_hop L_pc L_bands2 P_soc P_soc3 L_dbl3 M_dbl.
Open Scope Z_scope.

Definition z4_big (u : z4) : bool := let '(p, q, r, s) := u in
  ((p =? 0) || (q =? 0)) && ((r =? 0) || (s =? 0)).
Lemma tw_big : forallb (fun x => forallb (fun y => z4_big (tw (fst x) (snd x) (fst y) (snd y))) states) states = true.
Proof. vm_compute. reflexivity. Qed.
Lemma Rabs_le_mod (z : Cplx) : (Rabs (fst z) <= Cmod z)%R /\ (Rabs (snd z) <= Cmod z)%R.
Proof.
  assert (Q : forall a b : R, (Rabs a <= sqrt (a * a + b * b))%R).
  { intros a b. rewrite <- (sqrt_Rsqr_abs a). apply sqrt_le_1_alt. unfold Rsqr. nra. }
  unfold Cmod. destruct z as [a b]. cbn [fst snd]. split; [apply Q|]. rewrite Rplus_comm. apply Q.
Qed.
Lemma IZR_one z : z <> 0 -> (1 <= Rabs (IZR z))%R.
Proof. intros H. rewrite <- abs_IZR. apply (IZR_le 1). lia. Qed.
Lemma sqrt3_one : (1 <= sqrt 3)%R.
Proof. rewrite <- sqrt_1. apply sqrt_le_1_alt. lra. Qed.
(** A matrix element of L.S vanishes or is at least one half. *)
Lemma l_s_big i j oi oj a b : orbital i = Some oi -> orbital j = Some oj -> l_s oi a oj b = Cre 0 \/ (1 / 2 <= Rabs (fst (l_s oi a oj b)) \/ 1 / 2 <= Rabs (snd (l_s oi a oj b)))%R.
Proof.
  intros Hi Hj. assert (Hsp : forall b, spin (spin_name b) = Some b) by (intros []; reflexivity).
  pose proof (C35_spec i (spin_name a) j (spin_name b) oi oj a b Hi (Hsp a) Hj (Hsp b)) as E.
  assert (Li : orbital i <> None) by congruence. assert (Lj : orbital j <> None) by congruence. assert (La : forall b, spin (spin_name b) <> None) by (intros c; rewrite Hsp; discriminate).
  assert (L : legal i (spin_name a) j (spin_name b)) by (repeat split; auto). rewrite (tw_ok _ _ _ _ L) in E. assert (E' : l_s oi a oj b = Cmul (Cre (1 / 2)) (ev (tw i (spin_name a) j (spin_name b)))) by congruence. clear E. rewrite E'. clear E'.
  pose proof tw_big as K. rewrite forallb_forall in K. specialize (K (i, spin_name a) (proj2 (state_legal _ _) (conj Li (La a)))). rewrite forallb_forall in K. specialize (K (j, spin_name b) (proj2 (state_legal _ _) (conj Lj (La b)))). cbn [fst snd] in K.
  destruct (tw i (spin_name a) j (spin_name b)) as [[[p q] r] t]. unfold z4_big in K. apply andb_prop in K. destruct K as (K1 & K2). pose proof sqrt3_one as S3.
  assert (Q : forall x y, (x =? 0) || (y =? 0) = true -> (x = 0 /\ y = 0) \/ (1 <= Rabs (IZR x + IZR y * sqrt 3))%R).
  { intros x y Hxy. destruct (Z.eq_dec x 0) as [->|Hx], (Z.eq_dec y 0) as [->|Hy]; [left; auto| | |lia]; right.
    - rewrite Rplus_0_l, Rabs_mult, (Rabs_pos_eq (sqrt 3)) by lra. pose proof (IZR_one y Hy). nra.
    - rewrite Rmult_0_l, Rplus_0_r. apply IZR_one, Hx. }
  unfold ev. destruct (Q p q K1) as [(-> & ->)|H1].
  - destruct (Q r t K2) as [(-> & ->)|H2]; [left; ceq; cbn; ring|]. right. right. cbn [Cmul Cre fst snd]. replace (1 / 2 * (IZR r + IZR t * sqrt 3) + 0 * (IZR 0 + IZR 0 * sqrt 3))%R with (1 / 2 * (IZR r + IZR t * sqrt 3))%R by ring. rewrite Rabs_mult, (Rabs_pos_eq (1 / 2)) by lra. lra.
  - right. left. cbn [Cmul Cre fst snd]. replace (1 / 2 * (IZR p + IZR q * sqrt 3) - 0 * (IZR r + IZR t * sqrt 3))%R with (1 / 2 * (IZR p + IZR q * sqrt 3))%R by ring. rewrite Rabs_mult, (Rabs_pos_eq (1 / 2)) by lra. lra.
Qed.
Lemma coupling_big i j oi oj a b l : orbital i = Some oi -> orbital j = Some oj -> (l = 0 \/ 2 / 10 ^ 15 <= Rabs l)%R ->
  let v := sc l (l_s oi a oj b) in v = Cre 0 \/ (dec 1 15 <= Cmod v)%R.
Proof.
  intros Hi Hj [->|Hl] v; [left; apply sc_zero|]. destruct (l_s_big i j oi oj a b Hi Hj) as [E|H]; [left; unfold v; rewrite E; unfold sc; ceq; cbn; ring|]. right.
  assert (D : dec 1 15 = (1 / 10 ^ 15)%R) by reflexivity. rewrite D. pose proof (Rabs_le_mod v) as (M1 & M2). assert (P15 : (0 < / 10 ^ 15)%R) by (apply Rinv_0_lt_compat, pow_lt; lra).
  assert (E1 : Rabs (fst v) = (Rabs l * Rabs (fst (l_s oi a oj b)))%R) by (rewrite <- Rabs_mult; f_equal; unfold v, sc; destruct (l_s oi a oj b); cbn; ring).
  assert (E2 : Rabs (snd v) = (Rabs l * Rabs (snd (l_s oi a oj b)))%R) by (rewrite <- Rabs_mult; f_equal; unfold v, sc; destruct (l_s oi a oj b); cbn; ring).
  unfold Rdiv in *. destruct H as [H|H]; [rewrite E1 in M1; nra|rewrite E2 in M2; nra].
Qed.

Section Reached.
  Context {E X L : Type} {SE : Scalar E} {SX : Scalar X} (conj : E -> E) (zero : X).
  Notation pc := (pc E X E L).
  Notation reached := (@reached E X L conj zero).
  Lemma reached_empty : reached pc_empty.
  Proof using. exists []. split; [exact I|reflexivity]. Qed.
  Lemma reached_op (s : pc) o : reached s -> hist_ok conj zero s [o] -> reached (fst (step conj zero s o)).
  Proof using.
    intros (os & H1 & H2) Ho. exists (os ++ [o]). split; [apply hist_app; [exact H1|rewrite <- H2; exact Ho]|]. rewrite run_fst_app, <- H2. cbn [run]. destruct (step conj zero s o). reflexivity.
  Qed.
  Lemma reached_lift (s s' : pc) o : reached s -> op_ok s o -> lift1 (step conj zero s o) = Ok s' -> reached s'.
  Proof using.
    intros Hs Ho H. unfold lift1 in H. destruct (snd (step conj zero s o)); [|discriminate]. injection H as <-. apply reached_op; [exact Hs|]. split; [exact Ho|exact I].
  Qed.
  Lemma fold_reached {A} (f : pc -> A -> res pc) l : (forall p a p', reached p -> f p a = Ok p' -> reached p') ->
    forall acc p', (forall p, acc = Ok p -> reached p) -> fold_left (fun acc a => bind acc (fun p => f p a)) l acc = Ok p' -> reached p'.
  Proof using.
    intros Hf. induction l as [|a l IH]; intros acc p' Ha H; [apply Ha, H|]. cbn [fold_left] in H. apply (IH _ p') in H; [exact H|]. intros p Hp. destruct acc as [q|x]; [|discriminate]. cbn [bind] in Hp. apply (Hf q a p (Ha q eq_refl) Hp).
  Qed.
  Lemma reached_terms' ob ok l acc p' : (forall p, acc = Ok p -> reached p) -> M_build.add_terms conj ob ok l acc = Ok p' -> reached p'.
  Proof using.
    unfold M_build.add_terms. apply (fold_reached (fun p (t : rn3 * pair2 * E) => let '(r, (i, j), e) := t in lift1 (add_hopping conj p (row3 r) (i + ob) (j + ok) e))).
    intros p [[r [i j]] e] q Hp H. apply (reached_lift p q (OpAddHop (row3 r) (i + ob) (j + ok) e) Hp I H).
  Qed.
End Reached.
Section Merged.
  Context {E X L : Type} {SE : Scalar E} {SX : Scalar X} (conj : E -> E).
  Notation pc := (pc E X E L).
  Notation reached := (@reached E X L conj s0).
  Context (c2f : mat X -> vec X -> vec X -> vec X) (lat_mismatch : mat X -> mat X -> bool) (ext_ge : X -> X -> bool).
  Lemma merge_orbs_reached lat org cs : forall (h : list (gcell E X E L)) p h' p', reached p -> merge_orbs c2f lat org h p cs = (h', Ok p') -> reached p'.
  Proof using.
    induction cs as [|k cs IH]; intros h p h' p' Hp H; [injection H as _ <-; exact Hp|]. cbn [merge_orbs] in H. destruct (nth_error h k) as [c|]; [|discriminate].
    destruct (M_build.reset_lattice c2f lat org c) as (c' & [u|x]); [|discriminate].
    match type of H with context [fold_left ?f ?l ?a] => destruct (fold_left f l a) as [q|x] eqn:Q end; [|discriminate]. apply (IH _ q _ _) in H; [exact H|].
    refine (fold_reached conj s0 (fun p o => let '(x, y, z) := position o in lift1 (add_orbital s0 p [x; y; z] (energy o) (label o))) _ _ _ _ _ Q).
    - intros r o r' Hr Hro. destruct (position o) as [[x y] z]. apply (reached_lift conj s0 r r' (OpAddOrb [x; y; z] (energy o) (label o)) Hr I Hro).
    - intros r Hr. injection Hr as <-. exact Hp.
  Qed.
  Lemma fold_reached' {A} (f : res pc -> A -> res pc) l : (forall acc a p', (forall p, acc = Ok p -> reached p) -> f acc a = Ok p' -> reached p') ->
    forall acc p', (forall p, acc = Ok p -> reached p) -> fold_left f l acc = Ok p' -> reached p'.
  Proof using.
    intros Hf. induction l as [|a l IH]; intros acc p' Ha H; [apply Ha, H|]. cbn [fold_left] in H. apply (IH _ p') in H; [exact H|]. intros p Hp. apply (Hf acc a p Ha Hp).
  Qed.
  Lemma merge_reached (h : list (gcell E X E L)) args h' m : merge conj c2f lat_mismatch ext_ge h args = (h', Ok m) -> reached (g_pc m).
  Proof using.
    unfold merge. destruct args as [|a0 args]; [discriminate|]. destruct (parse (a0 :: args)) as [[cs hs]|x]; [|discriminate]. destruct cs as [|k0 cs]; [discriminate|].
    destruct (nth_error h k0) as [c0|]; [|discriminate]. destruct (mapM _ _) as [cells|x]; [|discriminate]. destruct (existsb _ cells); [discriminate|]. destruct (existsb _ hs); [discriminate|]. cbv zeta.
    destruct (merge_orbs c2f (g_lat c0) (g_org c0) h pc_empty (k0 :: cs)) as (h1 & [p|x]) eqn:Qo; [|discriminate].
    apply merge_orbs_reached in Qo; [|apply reached_empty]. match goal with |- context [fold_left ?f hs ?a] => destruct (fold_left f hs a) as [p2|x] eqn:Q2 end; [|discriminate]. intros H. injection H as _ <-. cbn [g_pc].
    revert Q2. apply fold_reached'.
    - intros acc [[b k] d] p' Ha Hb. cbn [fst snd] in Hb. destruct (index_of b _) as [ib|]; [|discriminate]. destruct (index_of k _) as [ik|]; [|discriminate]. apply (reached_terms' conj s0 _ _ _ _ _ Ha Hb).
    - intros p1. apply fold_reached'.
      + intros acc [u k] p' Ha Hb. cbn [fst snd] in Hb. destruct (nth_error h1 k) as [c|]; [apply (reached_terms' conj s0 _ _ _ _ _ Ha Hb)|apply Ha, Hb].
      + intros q Hq. injection Hq as <-. exact Qo.
  Qed.
End Merged.
Lemma each_reached {A} (f : rcell -> A -> res rcell) l : (forall p a p', reached Cconj 0%R p -> f p a = Ok p' -> reached Cconj 0%R p') ->
  forall s s', reached Cconj 0%R s -> each f s l = Ok s' -> reached Cconj 0%R s'.
Proof.
  intros Hf. induction l as [|a l IH]; intros s s' Hs H; [injection H as <-; exact Hs|]. cbn [each] in H. destruct (f s a) as [s1|x] eqn:Q; [|discriminate]. apply (IH s1 s' (Hf s a s1 Hs Q) H).
Qed.
Lemma add_spin_reached c2f lat_mismatch ext_ge soc_lambda lat s s' : add_spin c2f lat_mismatch ext_ge soc_lambda lat s = Ok s' -> reached Cconj 0%R s'.
Proof.
  unfold add_spin. destruct (merge _ _ _ _ _ _) as (h & [m|x]) eqn:Qm; [|discriminate]. cbn [snd bind]. apply merge_reached in Qm.
  assert (Hl : forall sp p a p', reached Cconj 0%R p -> spin_label sp p a = Ok p' -> reached Cconj 0%R p').
  { intros sp p a p' Hp H. unfold spin_label in H. destruct (orb_label p a) as [l|x]; [|discriminate]. cbn [bind] in H.
    apply (reached_lift Cconj 0%R p p' (OpSetOrb a None None (Some (l ++ ":" ++ sp)%string)) Hp I). unfold lift1. cbn [step]. destruct (set_orbital _ _ _ _ _ _) as (q & [u|x]); [exact H|discriminate]. }
  unfold spin_labels. intros H. destruct (each (spin_label "up") _ _) as [s1|x] eqn:Q1; [|discriminate]. cbn [bind] in H. destruct (each (spin_label "down") _ _) as [s2|x] eqn:Q2; [|discriminate]. cbn [bind] in H.
  apply each_reached in Q1; [|apply Hl|exact Qm]. apply each_reached in Q2; [|apply Hl|exact Q1]. unfold soc_terms in H. apply each_reached in H; [exact H| |exact Q2].
  intros p i p' Hp Hr. unfold soc_row in Hr. destruct (orb_label p i) as [l|x]; [|discriminate]. cbn [bind] in Hr. destruct (three_fields l) as [[[ai li] si]|x]; [|discriminate]. cbn [bind] in Hr.
  apply each_reached in Hr; [exact Hr| |exact Hp]. intros q j q' Hq Hs. unfold soc_pair in Hs. destruct (orb_label q j) as [lj|x]; [|discriminate]. cbn [bind] in Hs. destruct (three_fields lj) as [[[aj lj'] sj]|x]; [|discriminate]. cbn [bind] in Hs.
  destruct (String.eqb aj ai); [|injection Hs as <-; exact Hq]. destruct (soc_eval li si lj' sj) as [v|x]; [|discriminate]. cbn [bind] in Hs. destruct (soc_lambda aj) as [lam|x]; [|discriminate]. cbn [bind] in Hs. cbv zeta in Hs. destruct (Rleb _ _); [|injection Hs as <-; exact Hq].
  assert (Ha : match add_hopping Cconj q [0; 0; 0] i j (Cmul v (Cre lam)) with (s', Ok _) => Ok s' | (_, Err x) => Err x end = Ok q') by (destruct (snd (get_hopping Cconj q [0; 0; 0] i j)) as [u|[]]; try discriminate; exact Hs).
  apply (reached_lift Cconj 0%R q q' (OpAddHop [0; 0; 0] i j (Cmul v (Cre lam))) Hq I). unfold lift1. cbn [step]. destruct (add_hopping _ _ _ _ _ _) as (q1 & [u|x]); [exact Ha|discriminate].
Qed.
