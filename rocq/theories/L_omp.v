(** Parallel loops whose iterations own the memory they write. *)
From Verif Require Import Prelude Vec Cx L_base M_omp.
From Coq Require Import String Permutation List.
Import ListNotations.
Local Open Scope string_scope.
Local Open Scope list_scope.
Local Open Scope Z_scope.

Section Omp.
  Context {E : Type} {SE : Scalar E}.
  Notation val := (val E). Notation prog := (prog E). Notation mem := (mem E). Notation thread := (thread E). Notation env := (env E).

  Lemma idx_eqb_eq a b : idx_eqb a b = true <-> a = b.
  Proof.
    revert b; induction a as [|x a IH]; intros [|y b]; cbn; split; try discriminate; try reflexivity.
    - intro H. apply andb_prop in H as [h1 h2]. apply Z.eqb_eq in h1. apply IH in h2. congruence.
    - intro H. injection H as -> ->. rewrite Z.eqb_refl. apply IH. reflexivity.
  Qed.
  Lemma loc_eqb_eq a b : loc_eqb a b = true <-> a = b.
  Proof.
    destruct a as [x|x i], b as [y|y j]; cbn; split; try discriminate.
    - intro H. apply String.eqb_eq in H. congruence.
    - intro H. injection H as ->. apply String.eqb_refl.
    - intro H. apply andb_prop in H as [h1 h2]. apply String.eqb_eq in h1. apply idx_eqb_eq in h2. congruence.
    - intro H. injection H as -> ->. rewrite String.eqb_refl. apply idx_eqb_eq. reflexivity.
  Qed.
  Lemma upd_same {B} (m : loc -> B) x v : upd m x v x = v.
  Proof. unfold upd. rewrite (proj2 (loc_eqb_eq x x) eq_refl). reflexivity. Qed.
  Lemma upd_other {B} (m : loc -> B) x v y : y <> x -> upd m x v y = m y.
  Proof. intro H. unfold upd. destruct (loc_eqb y x) eqn:Q; [apply loc_eqb_eq in Q; congruence|reflexivity]. Qed.
  Lemma hidden_var ps x y : hidden ps x = Some y -> x = Var y.
  Proof. destruct x as [s|]; cbn; [|discriminate]. destruct (existsb _ ps); congruence. Qed.

  Definition ov := loc -> option val.
  Section Safe.
    Context (ps : list string) (m0 : mem) (owner : loc -> option Z).
    (** Iteration i, alone, with its own and private writes so far in [o],
        touches shared memory of no other iteration and reads private
        variables only after writing them, and ends with Q. *)
    Fixpoint safe {A} (i : Z) (p : prog A) (o : ov) (Q : A -> ov -> Prop) : Prop :=
      match p with
      | Ret a => Q a o
      | Rd x k =>
          match hidden ps x with
          | Some _ => exists v, o x = Some v /\ safe i (k v) o Q
          | None => (owner x = None /\ safe i (k (m0 x)) o Q) \/
                    (owner x = Some i /\ safe i (k (match o x with Some v => v | None => m0 x end)) o Q)
          end
      | Wr x v p => (hidden ps x = None -> owner x = Some i) /\ safe i p (upd o x (Some v)) Q
      end.
    Lemma safe_bind {A B} i (p : prog A) (f : A -> prog B) o Q :
      safe i p o (fun a o' => safe i (f a) o' Q) -> safe i (pbind p f) o Q.
    Proof.
      revert o; induction p as [a|x k IH|x v p IH]; intros o H; cbn in *; [exact H| |].
      - destruct (hidden ps x); [destruct H as (v & h1 & h2); exists v; split; [exact h1|apply IH; exact h2]|].
        destruct H as [[h1 h2]|[h1 h2]]; [left|right]; (split; [exact h1|apply IH; exact h2]).
      - destruct H as [h1 h2]. split; [exact h1|apply IH; exact h2].
    Qed.
    Lemma safe_mono {A} i (p : prog A) o (Q Q' : A -> ov -> Prop) : (forall a o, Q a o -> Q' a o) -> safe i p o Q -> safe i p o Q'.
    Proof.
      intro HQ. revert o; induction p as [a|x k IH|x v p IH]; intros o H; cbn in *; [apply HQ; exact H| |].
      - destruct (hidden ps x); [destruct H as (v & h1 & h2); exists v; split; [exact h1|apply IH; exact h2]|].
        destruct H as [[h1 h2]|[h1 h2]]; [left|right]; (split; [exact h1|apply IH; exact h2]).
      - destruct H as [h1 h2]. split; [exact h1|apply IH; exact h2].
    Qed.
    (** Loops inside an iteration. *)
    Lemma safe_iter i x z n body (J : Z -> ov -> Prop) o (Q : unit -> ov -> Prop) : hidden ps (Var x) = Some x ->
      J z o ->
      (forall k o, z <= k < z + Z.of_nat n -> J k o -> safe i body (upd o (Var x) (Some (I k))) (fun _ o' => J (k + 1) o')) ->
      (forall o, J (z + Z.of_nat n) o -> Q tt (upd o (Var x) (Some (I (z + Z.of_nat n))))) ->
      safe i (iter x z n body) o Q.
    Proof.
      intros Hx. revert z o. induction n as [|n IH]; intros z o H0 HS HE; cbn [iter].
      - cbn [puti safe]. rewrite Hx. split; [discriminate|]. replace z with (z + Z.of_nat 0) by lia. apply HE. replace (z + Z.of_nat 0) with z by lia. exact H0.
      - apply safe_bind. cbn [puti safe]. rewrite Hx. split; [discriminate|]. apply safe_bind.
        eapply safe_mono; [|apply HS; [lia|exact H0]]. intros [] o' h. apply IH; [exact h| |].
        + intros k o'' Hk. apply HS. lia.
        + intros o'' h'. replace (z + 1 + Z.of_nat n) with (z + Z.of_nat (S n)) in * by lia. apply HE. exact h'.
    Qed.
    Lemma safe_do i x lo hi body (J : Z -> ov -> Prop) o (Q : unit -> ov -> Prop) : hidden ps (Var x) = Some x -> lo <= hi + 1 ->
      J lo o ->
      (forall k o, lo <= k <= hi -> J k o -> safe i body (upd o (Var x) (Some (I k))) (fun _ o' => J (k + 1) o')) ->
      (forall o, J (hi + 1) o -> Q tt (upd o (Var x) (Some (I (hi + 1))))) ->
      safe i (do_ x lo hi body) o Q.
    Proof.
      intros Hx Hr H0 HS HE. unfold do_. apply (safe_iter i x lo _ body J); [exact Hx|exact H0| |].
      - intros k o' Hk. apply HS. lia.
      - replace (lo + Z.of_nat (Z.to_nat (hi - lo + 1))) with (hi + 1) by lia. exact HE.
    Qed.
  End Safe.

  Section Loop.
    Context (ps : list string) (lv : string) (body : prog unit) (m0 : mem) (owner : loc -> option Z) (fin : loc -> option val).
    Context (plan : list (list Z)) (undef : list env).
    Context (r : option string) (c : Z -> val -> val).
    Definition start (acc : val) : ov := fun x => match r with Some r => if loc_eqb x (Var r) then Some acc else None | None => None end.
    Definition target (i : Z) (acc : val) (_ : unit) (o : ov) : Prop :=
      (forall x, owner x = Some i -> o x = fin x) /\ match r with Some r => o (Var r) = Some (c i acc) | None => True end.
    Hypothesis Hlv : hidden ps (Var lv) = Some lv.
    Hypothesis Hr : match r with Some r => hidden ps (Var r) = Some r | None => True end.
    Hypothesis Hown : forall x, hidden ps x <> None -> owner x = None.
    Hypothesis HB : forall i acc, In i (concat plan) -> safe ps m0 owner i (Wr (Var lv) (I i) body) (start acc) (target i acc).
    Hypothesis HN : NoDup (concat plan).
    Hypothesis HU : length undef = length plan.

    Definition final (x : loc) : val := match fin x with Some v => v | None => m0 x end.
    Definition acc_of (e : env) : val := match r with Some r => e r | None => I 0 end.
    Definition total (init : val) (l : list Z) : val := fold_left (fun a i => c i a) l init.
    Definition carries (e : env) (v : val) : Prop := match r with Some r => e r = v | None => True end.
    Definition agree (e : env) (o : ov) : Prop := forall y v, hidden ps (Var y) = Some y -> o (Var y) = Some v -> e y = v.

    Inductive tinv (m : mem) (pl : list Z) (e0 : env) (t : thread) : Prop :=
    | idle dn rest : pl = dn ++ rest -> code t = chain lv body rest ->
        (forall x i, owner x = Some i -> In i dn -> m x = final x) ->
        (forall x i, owner x = Some i -> In i rest -> m x = m0 x) ->
        carries (priv t) (total (acc_of e0) dn) -> tinv m pl e0 t
    | busy dn i rest p o : pl = dn ++ i :: rest -> code t = pbind p (fun _ => chain lv body rest) ->
        (forall x j, owner x = Some j -> In j dn -> m x = final x) ->
        (forall x, owner x = Some i -> m x = match o x with Some v => v | None => m0 x end) ->
        (forall x j, owner x = Some j -> In j rest -> m x = m0 x) ->
        agree (priv t) o -> safe ps m0 owner i p o (target i (total (acc_of e0) dn)) -> tinv m pl e0 t.

    Lemma start_owner acc x i : owner x = Some i -> start acc x = None.
    Proof.
      intro Hx. unfold start. destruct r as [r'|]; [|reflexivity]. destruct (loc_eqb x (Var r')) eqn:Q; [|reflexivity].
      apply loc_eqb_eq in Q as ->. rewrite Hown in Hx; [discriminate|]. rewrite Hr. discriminate.
    Qed.
    (** An unfinished thread is inside an iteration that accesses memory. *)
    Lemma wake m pl e0 t : incl pl (concat plan) -> tinv m pl e0 t -> code t <> Ret tt ->
      exists dn i rest p o, pl = dn ++ i :: rest /\ code t = pbind p (fun _ => chain lv body rest) /\ p <> Ret tt /\
        (forall x j, owner x = Some j -> In j dn -> m x = final x) /\
        (forall x, owner x = Some i -> m x = match o x with Some v => v | None => m0 x end) /\
        (forall x j, owner x = Some j -> In j rest -> m x = m0 x) /\
        agree (priv t) o /\ safe ps m0 owner i p o (target i (total (acc_of e0) dn)).
    Proof.
      intros Hin.
      assert (HI : forall dn rest, pl = dn ++ rest -> code t = chain lv body rest ->
        (forall x i, owner x = Some i -> In i dn -> m x = final x) ->
        (forall x i, owner x = Some i -> In i rest -> m x = m0 x) ->
        carries (priv t) (total (acc_of e0) dn) -> code t <> Ret tt ->
        exists dn i rest p o, pl = dn ++ i :: rest /\ code t = pbind p (fun _ => chain lv body rest) /\ p <> Ret tt /\
        (forall x j, owner x = Some j -> In j dn -> m x = final x) /\
        (forall x, owner x = Some i -> m x = match o x with Some v => v | None => m0 x end) /\
        (forall x j, owner x = Some j -> In j rest -> m x = m0 x) /\
        agree (priv t) o /\ safe ps m0 owner i p o (target i (total (acc_of e0) dn))).
      { intros dn rest -> hc hd hr hs Hne. destruct rest as [|i rest]; [cbn in hc; congruence|].
        exists dn, i, rest, (Wr (Var lv) (I i) body), (start (total (acc_of e0) dn)).
        split; [reflexivity|]. split; [exact hc|]. split; [discriminate|]. split; [exact hd|].
        split; [intros x Hx; rewrite (start_owner _ _ _ Hx); apply (hr x i Hx); left; reflexivity|].
        split; [intros x j Hx Hj; apply (hr x j Hx); right; exact Hj|]. split.
        - intros y v Hy Hv. unfold start in Hv. unfold carries in hs. destruct r as [r'|]; [|discriminate].
          destruct (loc_eqb (Var y) (Var r')) eqn:Q; [|discriminate]. apply loc_eqb_eq in Q. injection Q as ->. congruence.
        - apply HB. apply Hin. apply in_or_app. right. left. reflexivity. }
      intros [dn rest hp hc hd hr hs|dn i rest p o hp hc hd hi hr ha hs] Hne; [apply (HI dn rest); assumption|].
      destruct p as [[]|x k|x v p].
      - cbn [pbind] in hc. cbn [safe] in hs. destruct hs as [h1 h2]. apply (HI (dn ++ [i]) rest); try assumption.
        + rewrite hp, <- app_assoc. reflexivity.
        + intros x j Hx Hj. apply in_app_or in Hj as [Hj|[->|[]]]; [apply (hd x j); assumption|].
          rewrite hi by exact Hx. unfold final. rewrite (h1 x Hx). reflexivity.
        + unfold carries. destruct r as [r'|]; [|exact Logic.I]. unfold total. rewrite fold_left_app. cbn [fold_left].
          apply ha; [exact Hr|exact h2].
      - exists dn, i, rest, (Rd x k), o. split; [exact hp|]. split; [exact hc|]. split; [discriminate|]. split; [exact hd|]. split; [exact hi|]. split; [exact hr|]. split; [exact ha|exact hs].
      - exists dn, i, rest, (Wr x v p), o. split; [exact hp|]. split; [exact hc|]. split; [discriminate|]. split; [exact hd|]. split; [exact hi|]. split; [exact hr|]. split; [exact ha|exact hs].
    Qed.

    Definition inv (s : state E) : Prop :=
      length (snd s) = length plan /\
      (forall n pl e0 t, nth_error plan n = Some pl -> nth_error undef n = Some e0 -> nth_error (snd s) n = Some t -> tinv (fst s) pl e0 t) /\
      (forall x, (forall i, owner x = Some i -> ~ In i (concat plan)) -> fst s x = m0 x).

    Lemma In_concat_nth n pl i : nth_error plan n = Some pl -> In i pl -> In i (concat plan).
    Proof. intros H1 H2. apply in_concat. exists pl. split; [eapply nth_error_In; exact H1|exact H2]. Qed.
    Lemma apart n n' pl pl' i : nth_error plan n = Some pl -> nth_error plan n' = Some pl' -> In i pl -> In i pl' -> n = n'.
    Proof.
      clear HB HU. revert HN n n'. induction plan as [|p l IH]; intros HN n n' H1 H2 Hi Hi'; [destruct n; discriminate|].
      cbn [concat] in HN. assert (HX : forall x, In x p -> ~ In x (concat l)).
      { intros x Hx Hx'. clear - HN Hx Hx'. induction p as [|a p IH]; [destruct Hx|]. cbn in HN. inversion HN as [|? ? h1 h2]; subst. destruct Hx as [->|Hx]; [apply h1; apply in_or_app; right; exact Hx'|apply IH; assumption]. }
      assert (HM : forall n pl, nth_error l n = Some pl -> In i pl -> In i (concat l)) by (intros k q Hk Hq; apply in_concat; exists q; split; [eapply nth_error_In; exact Hk|exact Hq]).
      destruct n as [|n], n' as [|n']; cbn [nth_error] in H1, H2.
      - reflexivity.
      - injection H1 as <-. exfalso. apply (HX i Hi). eapply HM; eassumption.
      - injection H2 as <-. exfalso. apply (HX i Hi'). eapply HM; eassumption.
      - f_equal. apply IH; try assumption. clear - HN. induction p as [|a p IH]; [exact HN|]. apply IH. inversion HN; assumption.
    Qed.
    Lemma tinv_change m m' pl e0 t : (forall x i, owner x = Some i -> In i pl -> m' x = m x) -> tinv m pl e0 t -> tinv m' pl e0 t.
    Proof.
      intros HC [dn rest hp hc hd hr hs|dn i rest p o hp hc hd hi hr ha hs].
      - apply (idle _ _ _ _ dn rest); try assumption; intros x i Hx Hi; rewrite (HC x i Hx); subst pl; try (apply in_or_app; tauto); [apply (hd x i)|apply (hr x i)]; assumption.
      - apply (busy _ _ _ _ dn i rest p o); try assumption.
        + intros x j Hx Hj. rewrite (HC x j Hx); [apply (hd x j); assumption|]. subst pl. apply in_or_app; tauto.
        + intros x Hx. rewrite (HC x i Hx); [apply hi; exact Hx|]. subst pl. apply in_or_app; right; left; reflexivity.
        + intros x j Hx Hj. rewrite (HC x j Hx); [apply (hr x j); assumption|]. subst pl. apply in_or_app; right; right; exact Hj.
    Qed.

    Lemma inv_turn s n : inv s -> inv (turn ps s n).
    Proof.
      destruct s as [m ts]. intros (h1 & h2 & h3). cbn [fst snd] in *. unfold turn.
      destruct (nth_error ts n) as [t|] eqn:Ht; [|split; [|split]; assumption].
      assert (Hn : (n < length ts)%nat) by (apply nth_error_Some; congruence).
      destruct (nth_error plan n) as [pl|] eqn:Hpl; [|apply nth_error_None in Hpl; lia].
      destruct (nth_error undef n) as [e0|] eqn:He; [|apply nth_error_None in He; lia].
      pose proof (h2 n pl e0 t Hpl He Ht) as Hinv.
      destruct (code t) as [a|x k|x v p] eqn:Hc; [split; [|split]; assumption| |].
      all: destruct (wake m pl e0 t) as (dn & i & rest & q & o & g1 & g2 & g3 & g4 & g5 & g6 & g7 & g8);
        [intros j Hj; eapply In_concat_nth; eassumption|exact Hinv|congruence|].
      all: assert (Hipl : In i pl) by (rewrite g1; apply in_or_app; right; left; reflexivity).
      - (* read *)
        rewrite Hc in g2. destruct q as [[]|x' k'|x' v' q]; [congruence| |discriminate]. cbn [pbind] in g2. injection g2 as -> ->.
        split; [cbn [snd]; rewrite length_set_nth; exact h1|]. split; [|exact h3]. cbn [fst snd].
        intros n' pl' e' t' q1 q2 q3. rewrite nth_error_set_nth in q3. destruct (Nat.eqb_spec n' n) as [->|Hnn]; [|eapply h2; eassumption].
        destruct (Nat.ltb_spec n (length ts)); [|lia]. injection q3 as <-. rewrite Hpl in q1. injection q1 as <-. rewrite He in q2. injection q2 as <-.
        cbn [safe] in g8. destruct (hidden ps x') as [y|] eqn:Hh.
        + destruct g8 as (v & w1 & w2). apply hidden_var in Hh as Hx. subst x'.
          apply (busy _ _ _ _ dn i rest (k' v) o); try assumption. cbn [code]. rewrite (g7 y v Hh w1). reflexivity.
        + destruct g8 as [[w1 w2]|[w1 w2]].
          * apply (busy _ _ _ _ dn i rest (k' (m0 x')) o); try assumption. cbn [code]. rewrite (h3 x'); [reflexivity|]. intros j Hj. congruence.
          * apply (busy _ _ _ _ dn i rest (k' (match o x' with Some v => v | None => m0 x' end)) o); try assumption. cbn [code]. rewrite (g5 x' w1). reflexivity.
      - (* write *)
        rewrite Hc in g2. destruct q as [[]|x' k'|x' v' q]; [congruence|discriminate|]. cbn [pbind] in g2. injection g2 as -> -> ->.
        cbn [safe] in g8. destruct g8 as [w1 w2]. destruct (hidden ps x') as [y|] eqn:Hh.
        + apply hidden_var in Hh as Hx. subst x'. split; [cbn [snd]; rewrite length_set_nth; exact h1|]. split; [|exact h3]. cbn [fst snd].
          intros n' pl' e' t' q1 q2 q3. rewrite nth_error_set_nth in q3. destruct (Nat.eqb_spec n' n) as [->|Hnn]; [|eapply h2; eassumption].
          destruct (Nat.ltb_spec n (length ts)); [|lia]. injection q3 as <-. rewrite Hpl in q1. injection q1 as <-. rewrite He in q2. injection q2 as <-.
          apply (busy _ _ _ _ dn i rest q (upd o (Var y) (Some v'))); try assumption; [reflexivity| |].
          * intros x Hx. rewrite (g5 x Hx), upd_other; [reflexivity|]. intros ->. rewrite Hown in Hx; congruence.
          * cbn [priv]. intros z v Hz Hv. unfold eupd. destruct (String.eqb_spec z y) as [->|Hzy]; [rewrite upd_same in Hv; congruence|].
            rewrite upd_other in Hv by congruence. apply g7; assumption.
        + specialize (w1 eq_refl). split; [cbn [snd]; rewrite length_set_nth; exact h1|]. cbn [fst snd]. split.
          * intros n' pl' e' t' q1 q2 q3. rewrite nth_error_set_nth in q3. destruct (Nat.eqb_spec n' n) as [->|Hnn].
            -- destruct (Nat.ltb_spec n (length ts)); [|lia]. injection q3 as <-. rewrite Hpl in q1. injection q1 as <-. rewrite He in q2. injection q2 as <-.
               assert (Hnd : NoDup (dn ++ i :: rest)).
               { rewrite <- g1. clear - HN Hpl. revert n Hpl. induction plan as [|a l IH]; intros [|n] H; try discriminate; cbn in *.
                 - injection H as ->. clear IH. induction pl as [|b pl IH]; [constructor|]. cbn in HN. inversion HN as [|? ? e1 e2]; subst. constructor; [intro; apply e1; apply in_or_app; left; assumption|apply IH; exact e2].
                 - apply (IH ltac:(clear - HN; induction a as [|b a IH]; [exact HN|apply IH; inversion HN; assumption]) n H). }
               assert (Hout : forall j, In j dn \/ In j rest -> j <> i).
               { intros j Hj ->. apply NoDup_remove_2 in Hnd. apply Hnd. apply in_or_app. exact Hj. }
               apply (busy _ _ _ _ dn i rest q (upd o x' (Some v'))); try assumption; [reflexivity| | | |].
               ++ intros x j Hx Hj. rewrite upd_other; [apply (g4 x j); assumption|]. intros ->. apply (Hout j); [tauto|congruence].
               ++ intros x Hx. unfold upd. destruct (loc_eqb x x'); [reflexivity|apply g5; exact Hx].
               ++ intros x j Hx Hj. rewrite upd_other; [apply (g6 x j); assumption|]. intros ->. apply (Hout j); [tauto|congruence].
               ++ cbn [priv]. intros z v Hz Hv. rewrite upd_other in Hv; [apply g7; assumption|]. intros <-. congruence.
            -- eapply tinv_change; [|eapply h2; eassumption]. intros x j Hx Hj. apply upd_other. intros ->. apply Hnn.
               apply (apart n' n pl' pl j); try assumption. congruence.
          * intros x Hx. rewrite upd_other; [apply h3; exact Hx|]. intros ->. apply (Hx i w1). eapply In_concat_nth; eassumption.
    Qed.

    Lemma inv_launch : inv (launch lv body plan undef m0).
    Proof.
      unfold launch. split; [cbn; rewrite map_length, combine_length; lia|]. split; [|reflexivity]. cbn [fst snd].
      intros n pl e0 t h1 h2 h3. rewrite nth_error_map in h3.
      assert (Hc : nth_error (combine plan undef) n = Some (pl, e0)).
      { clear - h1 h2. revert n h1 h2. generalize undef. induction plan as [|a l IH]; intros [|b u] [|n] h1 h2; try discriminate; cbn in *; [congruence|]. apply (IH u n); assumption. }
      rewrite Hc in h3. cbn in h3. injection h3 as <-.
      apply (idle _ _ _ _ [] pl); cbn; try reflexivity; [intros x i _ []|]. unfold carries, acc_of. destruct r; reflexivity.
    Qed.
    Lemma inv_run sched : inv (run ps sched (launch lv body plan undef m0)).
    Proof.
      unfold run. pose proof inv_launch as H. revert H. generalize (launch lv body plan undef m0).
      induction sched as [|n l IH]; intros s H; [exact H|]. cbn. apply IH. apply inv_turn. exact H.
    Qed.

    (** Every schedule ends with the same shared memory, and the copies of
        the reduction variable depend on the plan only. *)
    Lemma parallel_do sched m ts : run ps sched (launch lv body plan undef m0) = (m, ts) -> done (m, ts) ->
      (forall x i, owner x = Some i -> In i (concat plan) -> m x = final x) /\
      (forall x, (forall i, owner x = Some i -> ~ In i (concat plan)) -> m x = m0 x) /\
      (forall n pl e0 t, nth_error plan n = Some pl -> nth_error undef n = Some e0 -> nth_error ts n = Some t ->
         carries (priv t) (total (acc_of e0) pl)).
    Proof.
      intros HR HD. pose proof (inv_run sched) as HI. rewrite HR in HI. destruct HI as (h1 & h2 & h3). cbn [fst snd] in *.
      assert (HF : forall n pl e0 t, nth_error plan n = Some pl -> nth_error undef n = Some e0 -> nth_error ts n = Some t ->
        (forall x i, owner x = Some i -> In i pl -> m x = final x) /\ carries (priv t) (total (acc_of e0) pl)).
      { intros n pl e0 t q1 q2 q3. unfold done in HD. rewrite Forall_forall in HD. specialize (HD t (nth_error_In _ _ q3)). cbn [snd] in HD.
        destruct (h2 n pl e0 t q1 q2 q3) as [dn rest hp hc hd hr hs|dn i rest p o hp hc hd hi hr ha hs].
        - rewrite HD in hc. destruct rest as [|i rest]; [|discriminate]. rewrite app_nil_r in hp. subst pl. split; assumption.
        - rewrite HD in hc. destruct p as [[]| |]; try discriminate. cbn in hc. destruct rest as [|j rest]; [|discriminate]. cbn [safe] in hs. destruct hs as [w1 w2]. subst pl. split.
          + intros x j Hx Hj. apply in_app_or in Hj as [Hj|[<-|[]]]; [apply (hd x j); assumption|]. rewrite (hi x Hx). unfold final. rewrite (w1 x Hx). reflexivity.
          + unfold carries. destruct r as [r'|]; [|exact Logic.I]. unfold total. rewrite fold_left_app. apply ha; [exact Hr|exact w2]. }
      split; [|split; [exact h3|]].
      - intros x i Hx Hi. apply in_concat in Hi as (pl & Hp & Hi). apply In_nth_error in Hp as (n & Hp).
        assert (Hn : (n < length plan)%nat) by (apply nth_error_Some; congruence).
        destruct (nth_error undef n) as [e0|] eqn:He; [|apply nth_error_None in He; lia].
        destruct (nth_error ts n) as [t|] eqn:Ht; [|apply nth_error_None in Ht; lia].
        apply (proj1 (HF n pl e0 t Hp He Ht) x i Hx Hi).
      - intros n pl e0 t q1 q2 q3. apply (HF n pl e0 t q1 q2 q3).
    Qed.
  End Loop.

  Lemma set_nth_twice {A} n (l : list A) a b : set_nth n (set_nth n l a) b = set_nth n l b.
  Proof. revert n; induction l as [|x l IH]; intros [|n]; cbn; try reflexivity. rewrite IH. reflexivity. Qed.
  (** Every state can be finished. *)
  Lemma finish_one ps (ts : list thread) n t : nth_error ts n = Some t -> forall m, exists sched m' e,
    run ps sched (m, ts) = (m', set_nth n ts {| priv := e; code := Ret tt |}).
  Proof.
    intro Hn. assert (HL : (n < length ts)%nat) by (apply nth_error_Some; congruence).
    assert (HS : forall (us : list thread) a b, set_nth n (set_nth n us a) b = set_nth n us b) by (intros; apply set_nth_twice).
    assert (HP : forall p e m, exists sched m' e', run ps sched (m, set_nth n ts {| priv := e; code := p |}) = (m', set_nth n ts {| priv := e'; code := Ret tt |})).
    { induction p as [[]|x k IH|x v p IH]; intros e m; [exists [], m, e; reflexivity| |].
      - destruct (IH (match hidden ps x with Some y => e y | None => m x end) e m) as (sc & m' & e' & h).
        exists (n :: sc), m', e'. cbn [run fold_left]. unfold turn at 2. rewrite nth_error_set_nth, Nat.eqb_refl.
        destruct (Nat.ltb_spec n (length ts)); [|lia]. cbn [code priv]. rewrite HS. exact h.
      - destruct (IH (match hidden ps x with Some y => eupd e y v | None => e end) (match hidden ps x with Some y => m | None => upd m x v end)) as (sc & m' & e' & h).
        exists (n :: sc), m', e'. cbn [run fold_left]. unfold turn at 2. rewrite nth_error_set_nth, Nat.eqb_refl.
        destruct (Nat.ltb_spec n (length ts)); [|lia]. cbn [code priv]. destruct (hidden ps x); rewrite HS; exact h. }
    intro m. destruct (HP (code t) (priv t) m) as (sc & m' & e' & h). exists sc, m', e'.
    replace (set_nth n ts {| priv := priv t; code := code t |}) with ts in h; [exact h|].
    clear - Hn. revert n Hn. induction ts as [|u us IH]; intros [|n] Hn; cbn in *; try discriminate; [injection Hn as ->; destruct t; reflexivity|]. rewrite <- IH by exact Hn. reflexivity.
  Qed.
  Lemma finishes ps (s : state E) : exists sched, done (run ps sched s).
  Proof.
    destruct s as [m ts].
    assert (H : forall k, (k <= length ts)%nat -> exists sched m' ts', run ps sched (m, ts) = (m', ts') /\ length ts' = length ts /\
              forall n t, (n < k)%nat -> nth_error ts' n = Some t -> code t = Ret tt).
    { induction k as [|k IH]; intro Hk; [exists [], m, ts; repeat split; intros; lia|].
      destruct (IH ltac:(lia)) as (sc & m' & ts' & h1 & h2 & h3). destruct (nth_error ts' k) as [t|] eqn:Ht; [|apply nth_error_None in Ht; lia].
      destruct (finish_one ps ts' k t Ht m') as (sc' & m'' & e & h4). exists (sc ++ sc')%list, m'', (set_nth k ts' {| priv := e; code := Ret tt |}).
      unfold run in *. rewrite fold_left_app, h1. split; [exact h4|]. split; [rewrite length_set_nth; exact h2|].
      intros n u Hn Hu. rewrite nth_error_set_nth in Hu. destruct (Nat.eqb_spec n k) as [->|]; [|apply (h3 n u); [lia|exact Hu]].
      destruct (Nat.ltb_spec k (length ts')); [|lia]. injection Hu as <-. reflexivity. }
    destruct (H (length ts) (le_n _)) as (sc & m' & ts' & h1 & h2 & h3). exists sc. rewrite h1. unfold done. apply Forall_forall. intros t Ht.
    apply In_nth_error in Ht as (n & Hn). apply (h3 n t); [|exact Hn]. rewrite <- h2. apply nth_error_Some. cbn [snd] in Hn. rewrite Hn. discriminate.
  Qed.
End Omp.
