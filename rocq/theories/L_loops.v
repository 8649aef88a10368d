(** Rules for the loops of M_loops. *)
From Coq Require Import String Permutation List.
From Verif Require Import Prelude Vec Cx L_base M_omp L_omp M_loops S_loops.
Import ListNotations.
Local Open Scope string_scope.
Local Open Scope list_scope.
Local Open Scope Z_scope.

(** Arrays that iterations write, each with the position of the index that is
    the loop variable. *)
Fixpoint own_by (t : list (string * nat)) (x : loc) : option Z :=
  match x with
  | Var _ => None
  | Arr a idx => match t with
                 | [] => None
                 | (b, k) :: r => if String.eqb a b then nth_error idx k else own_by r x
                 end
  end.

Section Rules.
  Context {E : Type} {SE : Scalar E} (SL : ScalarLaws E).
  Add Ring Rrules : (s_ring E SL).
  Notation prog := (prog E).

  Lemma within_true lo hi i : within lo hi i = true <-> lo <= i <= hi.
  Proof. unfold within. rewrite andb_true_iff, !Z.leb_le. reflexivity. Qed.
  Lemma range_In lo hi i : In i (range lo hi) <-> lo <= i <= hi.
  Proof.
    unfold range. rewrite in_map_iff. split.
    - intros (k & <- & Hk). apply In_zrange in Hk. lia.
    - intro H. exists (i - lo). split; [lia|]. apply In_zrange. lia.
  Qed.
  Lemma range_NoDup lo hi : NoDup (range lo hi).
  Proof.
    unfold range. apply FinFun.Injective_map_NoDup; [intros a b H; lia|apply NoDup_zrange].
  Qed.
  Lemma range_snoc lo k : lo <= k -> range lo k = range lo (k - 1) ++ [k].
  Proof.
    intro H. unfold range. replace (Z.to_nat (k - lo + 1)) with (S (Z.to_nat (k - 1 - lo + 1))) by lia.
    rewrite zrange_S, map_app. cbn [map]. do 2 f_equal. lia.
  Qed.
  Lemma range_nil lo hi : hi < lo -> range lo hi = [].
  Proof. intro H. unfold range. replace (Z.to_nat (hi - lo + 1)) with O by lia. reflexivity. Qed.
  Lemma sum_snoc lo k (f : Z -> E) : lo <= k -> sum_over lo k f = sadd (sum_over lo (k - 1) f) (f k).
  Proof. intro H. unfold sum_over. rewrite range_snoc, map_app, (esum_app SL) by exact H. cbn [map esum fold_right]. ring. Qed.
  Lemma sum_nil lo hi (f : Z -> E) : hi < lo -> sum_over lo hi f = s0.
  Proof. intro H. unfold sum_over. rewrite range_nil by exact H. reflexivity. Qed.
  Lemma sum_max lo hi (f : Z -> E) : sum_over lo (Z.max lo (hi + 1) - 1) f = sum_over lo hi f.
  Proof.
    destruct (Z.le_gt_cases lo (hi + 1)) as [H|H]; [replace (Z.max lo (hi + 1) - 1) with hi by lia; reflexivity|].
    rewrite !sum_nil by lia. reflexivity.
  Qed.

  Lemma loop_rule ps lv body lo hi m0 owner F : hidden ps (Var lv) = Some lv ->
    (forall x, hidden ps x <> None -> owner x = None) ->
    (forall x, owner x <> None -> exists a idx, x = Arr a idx) ->
    (forall i, lo <= i <= hi -> safe ps m0 owner i (Wr (Var lv) (I i) body) (fun _ => None)
       (fun _ o => forall a idx, owner (Arr a idx) = Some i -> o (Arr a idx) = option_map N (F a idx))) ->
    (forall a idx, F a idx <> None -> exists i, owner (Arr a idx) = Some i /\ lo <= i <= hi) ->
    @loop_gives E ps lv body lo hi m0 F.
  Proof.
    intros h1 h2 h3 h4 h5 plan undef sched m ts HP HU HR HD x.
    pose (fin := fun x => match x with Var _ => None | Arr a idx => option_map (@N E) (F a idx) end).
    destruct (parallel_do ps lv body m0 owner fin plan undef None (fun _ v => v)) with (sched := sched) (m := m) (ts := ts) as (g1 & g2 & _); try assumption.
    - exact Logic.I.
    - intros i acc Hi. eapply safe_mono; [|apply h4; apply range_In; eapply Permutation_in; eassumption].
      intros [] o H. split; [|exact Logic.I]. intros y Hy. destruct (h3 y) as (a & idx & ->); [congruence|]. apply H. exact Hy.
    - eapply Permutation_NoDup; [apply Permutation_sym; exact HP|apply range_NoDup].
    - assert (Hc : forall i, In i (concat plan) <-> lo <= i <= hi).
      { intro i. rewrite <- range_In. split; apply Permutation_in; [exact HP|apply Permutation_sym; exact HP]. }
      destruct (owner x) as [i|] eqn:Ho.
      + destruct (h3 x) as (a & idx & ->); [congruence|].
        destruct (Z_le_dec lo i) as [Hl|Hl]; [destruct (Z_le_dec i hi) as [Hh|Hh]|].
        * rewrite (g1 _ i Ho) by (apply Hc; lia). unfold final, fin, patch. destruct (F a idx); reflexivity.
        * rewrite g2 by (intros j Hj; rewrite Hc; rewrite Ho in Hj; injection Hj as <-; lia). unfold patch.
          destruct (F a idx) eqn:HF; [|reflexivity]. destruct (h5 a idx) as (j & q1 & q2); [congruence|]. rewrite Ho in q1. injection q1 as <-. lia.
        * rewrite g2 by (intros j Hj; rewrite Hc; rewrite Ho in Hj; injection Hj as <-; lia). unfold patch.
          destruct (F a idx) eqn:HF; [|reflexivity]. destruct (h5 a idx) as (j & q1 & q2); [congruence|]. rewrite Ho in q1. injection q1 as <-. lia.
      + rewrite g2 by congruence. unfold patch. destruct x as [s|a idx]; [reflexivity|]. destruct (F a idx) eqn:HF; [|reflexivity].
        destruct (h5 a idx) as (j & q1 & q2); congruence.
  Qed.

  Lemma own_hidden ps t x : hidden ps x <> None -> own_by t x = None.
  Proof. destruct x as [s|a idx]; [|cbn; congruence]. intros _. destruct t as [|[b k] t]; reflexivity. Qed.
  Lemma own_arr t x : own_by t x <> None -> exists a idx, x = Arr a idx.
  Proof. destruct x as [s|a idx]; [|intros _; eauto]. destruct t as [|[b k] t]; cbn; congruence. Qed.

  (** Reductions *)
  Lemma length_turn ps (s : state E) n : List.length (snd (turn ps s n)) = List.length (snd s).
  Proof.
    destruct s as [m ts]. unfold turn. destruct (nth_error ts n) as [t|]; [|reflexivity].
    destruct (code t) as [|x k|x v p]; [reflexivity| |]; [|destruct (hidden ps x)]; cbn [snd]; apply length_set_nth.
  Qed.
  Lemma length_run ps sched (s : state E) : List.length (snd (run ps sched s)) = List.length (snd s).
  Proof. revert s; induction sched as [|n l IH]; intro s; [reflexivity|]. unfold run in *. cbn [fold_left]. rewrite IH. apply length_turn. Qed.
  Lemma esum_concat (c : Z -> E) plan : esum (map (fun pl => esum (map c pl)) plan) = esum (map c (concat plan)).
  Proof. induction plan as [|p l IH]; [reflexivity|]. cbn [map concat]. rewrite map_app, (esum_app SL), esum_cons, IH. reflexivity. Qed.
  Lemma sum_rule ps lv body lo hi r (m0 : mem E) (c : Z -> E) (cc : Z -> val E -> val E) : (forall i v, toE (cc i v) = sadd (toE v) (c i)) -> hidden ps (Var lv) = Some lv -> hidden ps (Var r) = Some r ->
    (forall i acc, lo <= i <= hi -> safe ps m0 (fun _ => None) i (Wr (Var lv) (I i) body) (upd (fun _ => None) (Var r) (Some acc))
       (fun _ o => o (Var r) = Some (cc i acc))) ->
    loop_sums ps lv body lo hi r m0 (sadd (real m0 r) (sum_over lo hi c)).
  Proof.
    intros hc h1 h2 h3 plan undef sched m ts HP HU HZ HR HD.
    destruct (parallel_do ps lv body m0 (fun _ => None) (fun _ => None) plan undef (Some r) cc) with (sched := sched) (m := m) (ts := ts) as (_ & g2 & g3); try assumption.
    - reflexivity.
    - intros i acc Hi. eapply safe_mono; [|apply (h3 i acc); apply range_In; eapply Permutation_in; eassumption].
      intros [] o H. split; [discriminate|]. exact H.
    - eapply Permutation_NoDup; [apply Permutation_sym; exact HP|apply range_NoDup].
    - assert (Hm : forall x, m x = m0 x) by (intro x; apply g2; discriminate). split; [exact Hm|].
      unfold reduced, real. rewrite Hm. f_equal. unfold sum_over. rewrite <- (esum_perm SL _ _ (Permutation_map c HP)), <- esum_concat. f_equal.
      assert (HL : List.length ts = List.length plan).
      { pose proof (length_run ps sched (launch lv body plan undef m0)) as H. rewrite HR in H. cbn [snd launch] in H. rewrite map_length, combine_length in H. lia. }
      clear - HL HU HZ g3 SL hc. revert undef ts HU HL HZ g3. induction plan as [|pl plan IH]; intros [|e0 undef] [|t ts] HU HL HZ g3; try discriminate; [reflexivity|].
      cbn [map]. inversion HZ as [|? ? z1 z2]; subst. f_equal.
      + pose proof (g3 O pl e0 t eq_refl eq_refl eq_refl) as H. unfold carries in H. rewrite H. cbn [acc_of]. rewrite z1.
        assert (HT : forall l v, toE (total cc v l) = sadd (toE v) (esum (map c l))).
        { induction l as [|a l IHl]; intro v; [cbn; ring|]. cbn [total fold_left map]. unfold total in IHl. rewrite IHl, esum_cons, hc. ring. }
        rewrite HT. cbn [toE]. ring.
      + apply (IH undef ts); [cbn in HU; lia|cbn in HL; lia|exact z2|]. intros n. apply (g3 (S n)).
  Qed.

  (** Single accesses. *)
  Section Steps.
    Context (ps : list string) (m0 : mem E) (owner : loc -> option Z) (i : Z).
    Lemma geti_priv x s o z (Q : Z -> ov -> Prop) : hidden ps x = Some s -> o x = Some (I z) -> Q z o -> safe ps m0 owner i (geti x) o Q.
    Proof. intros h1 h2 h3. cbn [geti safe]. rewrite h1. exists (I z). split; assumption. Qed.
    Lemma geti_shared x o (Q : Z -> ov -> Prop) : hidden ps x = None -> owner x = None -> Q (toZ (m0 x)) o -> safe ps m0 owner i (geti x) o Q.
    Proof. intros h1 h2 h3. cbn [geti safe]. rewrite h1. left. split; assumption. Qed.
    Lemma get_priv x s o v (Q : E -> ov -> Prop) : hidden ps x = Some s -> o x = Some v -> Q (toE v) o -> safe ps m0 owner i (get x) o Q.
    Proof. intros h1 h2 h3. cbn [get safe]. rewrite h1. exists v. split; assumption. Qed.
    Lemma get_shared x o (Q : E -> ov -> Prop) : hidden ps x = None -> owner x = None -> Q (toE (m0 x)) o -> safe ps m0 owner i (get x) o Q.
    Proof. intros h1 h2 h3. cbn [get safe]. rewrite h1. left. split; assumption. Qed.
    Lemma get_own x o v (Q : E -> ov -> Prop) : hidden ps x = None -> owner x = Some i -> o x = Some v -> Q (toE v) o -> safe ps m0 owner i (get x) o Q.
    Proof. intros h1 h2 h3 h4. cbn [get safe]. rewrite h1, h3. right. split; assumption. Qed.
    Lemma get_old x o (Q : E -> ov -> Prop) : hidden ps x = None -> owner x = Some i -> o x = None -> Q (toE (m0 x)) o -> safe ps m0 owner i (get x) o Q.
    Proof. intros h1 h2 h3 h4. cbn [get safe]. rewrite h1, h3. right. split; assumption. Qed.
    Lemma puti_priv x s z o (Q : unit -> ov -> Prop) : hidden ps x = Some s -> Q tt (upd o x (Some (I z))) -> safe ps m0 owner i (puti x z) o Q.
    Proof. intros h1 h2. cbn [puti safe]. rewrite h1. split; [discriminate|exact h2]. Qed.
    Lemma put_priv x s e o (Q : unit -> ov -> Prop) : hidden ps x = Some s -> Q tt (upd o x (Some (N e))) -> safe ps m0 owner i (put x e) o Q.
    Proof. intros h1 h2. cbn [put safe]. rewrite h1. split; [discriminate|exact h2]. Qed.
    Lemma put_own x e o (Q : unit -> ov -> Prop) : owner x = Some i -> Q tt (upd o x (Some (N e))) -> safe ps m0 owner i (put x e) o Q.
    Proof. intros h1 h2. cbn [put safe]. split; [intros _; exact h1|exact h2]. Qed.
    Lemma ret_ {A} (a : A) o (Q : A -> ov -> Prop) : Q a o -> safe ps m0 owner i (Ret a) o Q.
    Proof. exact (fun h => h). Qed.
    Lemma begin_ lv z body o (Q : unit -> ov -> Prop) s : hidden ps (Var lv) = Some s -> safe ps m0 owner i body (upd o (Var lv) (Some (I z))) Q -> safe ps m0 owner i (Wr (Var lv) (I z) body) o Q.
    Proof. intros h1 h2. cbn [safe]. rewrite h1. split; [discriminate|exact h2]. Qed.
    Lemma safe_any x lo hi body (J : Z -> ov -> Prop) o (Q : unit -> ov -> Prop) : hidden ps (Var x) = Some x ->
      J lo o ->
      (forall k o, lo <= k <= hi -> J k o -> safe ps m0 owner i body (upd o (Var x) (Some (I k))) (fun _ o' => J (k + 1) o')) ->
      (forall o k, k = Z.max lo (hi + 1) -> J k o -> Q tt (upd o (Var x) (Some (I k)))) ->
      safe ps m0 owner i (do_ x lo hi body) o Q.
    Proof.
      intros Hx H0 HS HE. unfold do_. apply (safe_iter ps m0 owner i x lo _ body J); [exact Hx|exact H0| |].
      - intros k o' Hk. apply HS. lia.
      - intros o' HJ. apply HE; [lia|exact HJ].
    Qed.
    Lemma safe_by x lo step n body (J : Z -> ov -> Prop) o (Q : unit -> ov -> Prop) : hidden ps (Var x) = Some x ->
      J 0 o ->
      (forall t o, 0 <= t < Z.of_nat n -> J t o -> safe ps m0 owner i body (upd o (Var x) (Some (I (lo + t * step)))) (fun _ o' => J (t + 1) o')) ->
      (forall o k, J (Z.of_nat n) o -> Q tt (upd o (Var x) (Some (I k)))) ->
      safe ps m0 owner i (iter_by x lo step n body) o Q.
    Proof.
      intros Hx. revert lo J o. induction n as [|n IH]; intros lo J o H0 HS HE; cbn [iter_by].
      - apply (puti_priv _ x); [exact Hx|]. apply HE. exact H0.
      - apply safe_bind. apply (puti_priv _ x); [exact Hx|]. apply safe_bind.
        pose proof (HS 0 o ltac:(lia) H0) as H. replace (lo + 0 * step) with lo in H by lia. eapply safe_mono; [|exact H]. cbv beta.
        intros [] o' h. apply (IH (lo + step) (fun t => J (t + 1))); [exact h| |].
        + intros t o'' Ht hj. replace (lo + step + t * step) with (lo + (t + 1) * step) by lia. apply HS; [lia|exact hj].
        + intros o'' k hj. apply HE. replace (Z.of_nat (S n)) with (Z.of_nat n + 1) by lia. exact hj.
    Qed.
    Lemma safe_each (lo hi : Z) f (J : Z -> ov -> Prop) o (Q : unit -> ov -> Prop) :
      J lo o -> (forall k o, lo <= k <= hi -> J k o -> safe ps m0 owner i (f k) o (fun _ o' => J (k + 1) o')) ->
      (forall o k, k = Z.max lo (hi + 1) -> J k o -> Q tt o) -> safe ps m0 owner i (each (range lo hi) f) o Q.
    Proof.
      intros H0 HS HE. unfold range. remember (Z.to_nat (hi - lo + 1)) as n eqn:Hn.
      assert (G : forall n z o, J (lo + Z.of_nat z) o -> (z + n)%nat = Z.to_nat (hi - lo + 1) -> safe ps m0 owner i (each (map (fun k => lo + k) (map Z.of_nat (seq z n))) f) o Q).
      { clear n Hn o H0. induction n as [|n IH]; intros z o HJ Hz; cbn [seq map each]; [cbn [safe]; apply (HE o (lo + Z.of_nat z)); [lia|exact HJ]|].
        apply safe_bind. eapply safe_mono; [|apply (HS (lo + Z.of_nat z)); [lia|exact HJ]]. cbv beta. intros [] o' h. apply IH; [|lia].
        replace (lo + Z.of_nat (S z)) with (lo + Z.of_nat z + 1) by lia. exact h. }
      apply (G n O o); [replace (lo + Z.of_nat 0) with lo by lia; exact H0|lia].
    Qed.
  End Steps.
End Rules.

(** the test for [done] *)
Definition finished {E} (s : state E) : bool := forallb (fun t => match code t with Ret _ => true | _ => false end) (snd s).
Lemma finished_done {E} (s : state E) : finished s = true -> done s.
Proof.
  unfold finished, done. intro H. apply Forall_forall. intros t Ht. rewrite forallb_forall in H. specialize (H t Ht).
  destruct (code t) as [[]| |]; [reflexivity|discriminate|discriminate].
Qed.
Lemma loop_gives_at {E} {SE : Scalar E} ps lv body lo hi (m0 : mem E) F : loop_gives ps lv body lo hi m0 F -> forall plan undef sched,
  Permutation (concat plan) (range lo hi) -> List.length undef = List.length plan -> finished (run ps sched (launch lv body plan undef m0)) = true ->
  forall x, fst (run ps sched (launch lv body plan undef m0)) x = patch m0 F x.
Proof.
  intros H plan undef sched h1 h2 h3 x. apply finished_done in h3. destruct (run ps sched (launch lv body plan undef m0)) as [m ts] eqn:HR.
  apply (H plan undef sched m ts); assumption.
Qed.

Ltac hid := reflexivity.
(** the value of a location *)
Ltac look := first
  [ apply upd_same
  | rewrite upd_other by (first [discriminate | intro; congruence | let H := fresh in intro H; injection H; lia]); look
  | eassumption | reflexivity | (match goal with H : forall _, _ |- _ => eapply H end) ].
Ltac step := match goal with
  | |- safe _ _ _ _ (pbind _ _) _ _ => apply safe_bind
  | |- safe _ _ _ _ (at_ _ _) _ _ => unfold at_
  | |- safe _ _ _ _ (set_at _ _ _) _ _ => unfold set_at
  | |- safe _ _ _ _ (var _) _ _ => unfold var
  | |- safe _ _ _ _ (let_ _ _) _ _ => unfold let_
  | |- safe _ _ _ _ (Ret _) _ _ => apply ret_; cbv beta
  | |- safe _ _ _ _ (Wr (Var _) (I _) _) _ _ => eapply begin_; [hid|]
  | |- safe _ _ _ _ (geti _) _ _ => first [eapply geti_priv; [hid|look|cbv beta] | apply geti_shared; [hid|reflexivity|cbv beta]]
  | |- safe _ _ _ _ (get _) _ _ => first
      [ eapply get_priv; [hid|look|cbv beta; cbn [toE]] | apply get_shared; [hid|reflexivity|cbv beta]
      | eapply get_own; [hid|reflexivity|look|cbv beta; cbn [toE]] | apply get_old; [hid|reflexivity|look|cbv beta] ]
  | |- safe _ _ _ _ (puti _ _) _ _ => eapply puti_priv; [hid|cbv beta]
  | |- safe _ _ _ _ (put _ _) _ _ => first [eapply put_priv; [hid|cbv beta] | apply put_own; [reflexivity|cbv beta]]
  end.
Ltac steps := repeat step.
