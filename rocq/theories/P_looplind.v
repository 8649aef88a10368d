(** C97: response functions in parallel. *)
From Coq Require Import String Permutation List.
From Verif Require Import Prelude Vec Cx L_base M_omp L_omp M_loops S_loops L_loops.
Import ListNotations.
Local Open Scope string_scope.
Local Open Scope list_scope.
Local Open Scope Z_scope.

Section Loops.
  Context {E : Type} {SE : Scalar E} (SL : ScalarLaws E).
  Add Ring Rlooplind : (s_ring E SL).
  Context (conj : E -> E) (div : E -> E -> E).
  Notation mem := (mem E).
  Ltac open := match goal with |- safe ?a ?b ?c ?d ?p ?o ?q => let p' := eval red in p in change (safe a b c d p' o q) end.

  (** Items of an array with three indices written so far. *)
  Definition cells (a : string) (P : Z -> Z -> Z -> bool) (f : Z -> Z -> Z -> option E) (o : ov (E := E)) : Prop :=
    forall idx, o (Arr a idx) = option_map N (match idx with [l; j; k] => if P l j k then f l j k else None | _ => None end).
  Lemma cells_upd a P f (o : ov (E := E)) x v : (forall idx, x <> Arr a idx) -> cells a P f o -> cells a P f (upd o x v).
  Proof. intros Hx H idx. rewrite upd_other by (intro Q; apply (Hx idx); symmetry; exact Q). apply H. Qed.
  Lemma cells_ext a P P' f (o : ov (E := E)) : (forall l j k, P l j k = P' l j k) -> cells a P f o -> cells a P' f o.
  Proof. intros HP H idx. rewrite H. destruct idx as [|l [|j [|k [|? ?]]]]; try reflexivity. rewrite HP. reflexivity. Qed.
  Lemma cells_none a P f (o : ov (E := E)) : (forall l j k, P l j k = false) -> (forall idx, o (Arr a idx) = None) -> cells a P f o.
  Proof. intros HP H idx. rewrite H. destruct idx as [|l [|j [|k [|? ?]]]]; try reflexivity. rewrite HP. reflexivity. Qed.
  Lemma cells_put a P P' f (o : ov (E := E)) l0 j0 k0 e : f l0 j0 k0 = Some e -> P' l0 j0 k0 = true ->
    (forall l j k, ~ (l = l0 /\ j = j0 /\ k = k0) -> P' l j k = P l j k) -> cells a P f o -> cells a P' f (upd o (Arr a [l0; j0; k0]) (Some (N e))).
  Proof.
    intros Hf H0 HP H idx. unfold upd. cbn [loc_eqb]. rewrite String.eqb_refl. cbn [andb]. destruct (idx_eqb idx [l0; j0; k0]) eqn:Q.
    - apply idx_eqb_eq in Q. subst idx. rewrite H0, Hf. reflexivity.
    - rewrite H. destruct idx as [|l [|j [|k [|? ?]]]]; try reflexivity. rewrite HP; [reflexivity|]. intros (-> & -> & ->).
      rewrite (proj2 (idx_eqb_eq _ _) eq_refl) in Q. discriminate.
  Qed.
  Lemma cells_skip a P P' f (o : ov (E := E)) l0 j0 k0 : f l0 j0 k0 = None ->
    (forall l j k, ~ (l = l0 /\ j = j0 /\ k = k0) -> P' l j k = P l j k) -> cells a P f o -> cells a P' f o.
  Proof.
    intros Hf HP H idx. rewrite H. destruct idx as [|l [|j [|k [|? ?]]]]; try reflexivity.
    destruct (Z.eq_dec l l0) as [->|]; [destruct (Z.eq_dec j j0) as [->|]; [destruct (Z.eq_dec k k0) as [->|]|]|]; try (rewrite HP by tauto; reflexivity).
    rewrite Hf. destruct (P' l0 j0 k0), (P l0 j0 k0); reflexivity.
  Qed.
  Ltac bools := unfold within; intros; repeat match goal with
    | |- context [?a <=? ?b] => destruct (Z.leb_spec a b)
    | |- context [?a =? ?b] => destruct (Z.eqb_spec a b) end; try reflexivity; exfalso; lia.

  (** ** Sums over k-points and pairs of bands *)
  Theorem C97_response ac n (m : mem) :
    loop_gives resp_private "i_w" (resp_body div ac) 1 n m
      (if ac then only "ac_cond" (vec 1 n (response div m true)) else only "dyn_pol" (mat 1 n (int m "i_q") (int m "i_q") (fun w _ => response div m false w))).
  Proof.
    pose (arr := if ac then "ac_cond" else "dyn_pol").
    apply (loop_rule _ _ _ _ _ _ (own_by [(arr, O)])); [reflexivity|apply own_hidden|apply own_arr| |].
    2: { intros a idx. unfold arr. destruct ac; unfold only; cbn [own_by]; match goal with |- context [String.eqb a ?s] => destruct (String.eqb_spec a s) as [->|] end; try congruence.
         - destruct idx as [|i [|? ?]]; cbn [vec nth_error]; try congruence. destruct (within 1 n i) eqn:Hw; [|congruence]. apply within_true in Hw. intros _. exists i. split; [reflexivity|lia].
         - destruct idx as [|i [|q [|? ?]]]; cbn [mat nth_error]; try congruence. destruct (within 1 n i) eqn:Hw; [|cbn; congruence]. apply within_true in Hw. intros _. exists i. split; [reflexivity|lia]. }
    intros w Hw. step. open.
    pose (T := fun l j k => div (num3 m "prod_df" l j k)
          (if ac then ssub (ssub (num3 m "delta_eng" l j k) (num m "omegas" w)) (real m "cdelta")
           else sadd (sadd (num3 m "delta_eng" l j k) (num m "omegas" w)) (real m "cdelta"))).
    pose (no := int m "num_orb").
    assert (HO : forall a idx, String.eqb a arr = false -> own_by [(arr, O)] (Arr a idx) = None) by (intros a idx Ha; cbn [own_by]; rewrite Ha; reflexivity).
    assert (Hsh : forall a idx o (Q : E -> ov -> Prop), String.eqb a arr = false -> Q (toE (m (Arr a idx))) o -> safe resp_private m (own_by [(arr, O)]) w (get (Arr a idx)) o Q).
    { intros a idx o Q Ha HQ. apply get_shared; [reflexivity|apply HO; exact Ha|exact HQ]. }
    assert (Hne : forall a, a = "prod_df" \/ a = "delta_eng" \/ a = "omegas" -> String.eqb a arr = false).
    { intros a Ha. unfold arr. destruct ac; destruct Ha as [->|[->| ->]]; reflexivity. }
    apply safe_bind. unfold at_. apply safe_bind. step. apply Hsh; [apply Hne; tauto|]. steps. fold (num m "omegas" w).
    pose (base := fun (o : ov (E := E)) => o (Var "i_w") = Some (I w) /\ o (Var "omega") = Some (N (num m "omegas" w)) /\ forall idx, o (Arr arr idx) = None).
    assert (Hb : forall o x v, base o -> x <> "i_w" -> x <> "omega" -> base (upd o (Var x) v)).
    { intros o x v (b1 & b2 & b3) n1 n2. split; [rewrite upd_other by congruence; exact b1|]. split; [rewrite upd_other by congruence; exact b2|].
      intro idx. rewrite upd_other by discriminate. apply b3. }
    apply (safe_any _ _ _ _ "i_k" (int m "k_min") (int m "k_max") _ (fun k o => base o /\
      o (Var "sum") = Some (N (sum_over (int m "k_min") (k - 1) (fun k => sum_over 1 no (fun j => sum_over 1 no (fun l => T l j k))))))); [reflexivity| | |].
    - split; [repeat (apply Hb; [|discriminate|discriminate])|rewrite sum_nil by lia; look].
      split; [look|]. split; [look|]. intro idx. look.
    - intros k o Hk [hb hs]. steps.
      apply (safe_any _ _ _ _ "jj" 1 no _ (fun j o => base o /\ o (Var "i_k") = Some (I k) /\
        o (Var "sum") = Some (N (sadd (sum_over (int m "k_min") (k - 1) (fun k => sum_over 1 no (fun j => sum_over 1 no (fun l => T l j k)))) (sum_over 1 (j - 1) (fun j => sum_over 1 no (fun l => T l j k))))))); [reflexivity| | |].
      + split; [apply Hb; [exact hb|discriminate|discriminate]|]. split; [look|]. rewrite upd_other by discriminate. rewrite hs. do 2 f_equal. rewrite (sum_nil 1 (1 - 1)) by lia. ring.
      + clear o hb hs. intros j o Hj (hb & hk & hs). steps.
        apply (safe_any _ _ _ _ "ll" 1 no _ (fun l o => base o /\ o (Var "i_k") = Some (I k) /\ o (Var "jj") = Some (I j) /\
          o (Var "sum") = Some (N (sadd (sadd (sum_over (int m "k_min") (k - 1) (fun k => sum_over 1 no (fun j => sum_over 1 no (fun l => T l j k)))) (sum_over 1 (j - 1) (fun j => sum_over 1 no (fun l => T l j k)))) (sum_over 1 (l - 1) (fun l => T l j k)))))); [reflexivity| | |].
        * split; [apply Hb; [exact hb|discriminate|discriminate]|]. split; [look|]. split; [look|]. rewrite upd_other by discriminate. rewrite hs. do 2 f_equal. rewrite (sum_nil 1 (1 - 1)) by lia. ring.
        * clear o hb hk hs. intros l o Hl (hb & hk & hj & hs). destruct hb as (b1 & b2 & b3). steps. apply Hsh; [apply Hne; tauto|]. step. apply Hsh; [apply Hne; tauto|]. steps.
          split; [apply Hb; [apply Hb; [split; [exact b1|split; [exact b2|exact b3]]|discriminate|discriminate]|discriminate|discriminate]|]. split; [look|]. split; [look|].
          rewrite upd_same. replace (l + 1 - 1) with l by lia. rewrite (sum_snoc SL 1 l) by lia. do 2 f_equal.
          match goal with |- sadd ?a ?t = _ => change t with (T l j k) end. ring.
        * clear o hb hk hs. intros o l -> (hb & hk & hj & hs). split; [apply Hb; [exact hb|discriminate|discriminate]|]. split; [look|]. rewrite upd_other by discriminate. rewrite hs. do 2 f_equal.
          rewrite (sum_max 1 no). replace (j + 1 - 1) with j by lia. rewrite (sum_snoc SL 1 j) by lia. ring.
      + clear o hb hs. intros o j -> (hb & hk & hs). split; [apply Hb; [exact hb|discriminate|discriminate]|]. rewrite upd_other by discriminate. rewrite hs. do 2 f_equal.
        rewrite (sum_max 1 no). replace (k + 1 - 1) with k by lia. rewrite (sum_snoc SL (int m "k_min") k) by lia. reflexivity.
    - intros o k -> [(b1 & b2 & b3) hs]. rewrite sum_max in hs.
      unfold arr in *. destruct ac; steps.
      + intros a idx. unfold only. cbn [own_by]. destruct (String.eqb_spec a "ac_cond") as [->|]; [|discriminate].
        destruct idx as [|i [|? ?]]; cbn [nth_error vec]; [discriminate| |intros _; rewrite !upd_other by discriminate; apply b3].
        intro Q. injection Q as ->. rewrite (proj2 (within_true 1 n w)) by lia. rewrite upd_same. reflexivity.
      + intros a idx. unfold only. cbn [own_by]. destruct (String.eqb_spec a "dyn_pol") as [->|]; [|discriminate].
        destruct idx as [|i [|q [|? ?]]]; cbn [nth_error mat]; [discriminate|intros _; rewrite !upd_other by discriminate; apply b3| |intros _; rewrite !upd_other by discriminate; apply b3].
        intro Q. injection Q as ->. rewrite (proj2 (within_true 1 n w)) by lia. cbn [andb]. destruct (within (int m "i_q") (int m "i_q") q) eqn:Hq.
        * apply within_true in Hq. replace q with (toZ (m (Var "i_q"))) by (unfold int in Hq; lia). rewrite upd_same. reflexivity.
        * rewrite upd_other; [rewrite upd_other by discriminate; apply b3|]. intro Q. injection Q as ->. unfold within, int in Hq. rewrite !(proj2 (Z.leb_le _ _)) in Hq by lia. discriminate.
  Qed.

  (** ** Pairs of bands, dynamic polarization *)
  Definition upto (n i jj ll : Z) (l j k : Z) : bool := (k =? i) && ((within 1 n l && within 1 (jj - 1) j) || ((j =? jj) && within 1 (ll - 1) l)).
  Theorem C97_pairs occ (arb : bool) lo hi (m : mem) : let n := int m "num_orb" in
    loop_gives dp_private "i_k" (dp_body conj occ arb) lo hi m
      (both (only "delta_eng" (cube n n lo hi (fun l j k => Some (ssub (num2 m "eng" j k) (dp_eng m arb l k)))))
            (only "prod_df" (cube n n lo hi (fun l j k => Some (dp_weight conj occ m arb l j k))))).
  Proof.
    intro n. set (fd := fun l j k => Some (ssub (num2 m "eng" j k) (dp_eng m arb l k))). set (fp := fun l j k => Some (dp_weight conj occ m arb l j k)).
    apply (loop_rule _ _ _ _ _ _ (own_by [("delta_eng", 2%nat); ("prod_df", 2%nat)])); [reflexivity|apply own_hidden|apply own_arr| |].
    2: { intros a idx. unfold both, only. cbn [own_by].
         destruct (String.eqb_spec a "delta_eng") as [->|]; [|destruct (String.eqb_spec a "prod_df") as [->|]; [|congruence]]; cbn [String.eqb Ascii.eqb Bool.eqb].
         all: destruct idx as [|l [|j [|k [|? ?]]]]; cbn [cube nth_error]; try congruence; destruct (within lo hi k) eqn:Hw; [|rewrite ?andb_false_r; congruence].
         all: apply within_true in Hw; intros _; exists k; split; [reflexivity|lia]. }
    intros i Hi. step. open. set (kk := if arb then "i_k" else "i_kpq").
    pose (base := fun o : ov (E := E) => o (Var "i_k") = Some (I i) /\ o (Var kk) = Some (I (dp_other m arb i))).
    apply safe_bind.
    apply (safe_mono _ _ _ _ _ _ (fun _ o => base o /\ forall a idx, o (Arr a idx) = None)).
    2: { unfold base, kk. destruct arb; steps; (split; [split; look|intros a idx; look]). }
    intros [] o [Hb0 Ho]. assert (Hb : forall o x v, base o -> x <> "i_k" -> x <> "i_kpq" -> base (upd o (Var x) v)).
    { intros o' x v [b1 b2] n1 n2. split; rewrite upd_other; try assumption; [congruence|]. unfold kk. destruct arb; congruence. }
    assert (Hba : forall o a idx v, base o -> base (upd o (Arr a idx) v)).
    { intros o' a idx v [b1 b2]. split; rewrite upd_other; try assumption; discriminate. }
    assert (Hkk : forall o (Q : Z -> ov -> Prop), base o -> Q (dp_other m arb i) o -> safe dp_private m (own_by [("delta_eng", 2%nat); ("prod_df", 2%nat)]) i (geti (Var kk)) o Q).
    { intros o' Q [b1 b2] HQ. apply (geti_priv _ _ _ _ _ kk _ (dp_other m arb i)); [unfold kk; destruct arb; reflexivity|exact b2|exact HQ]. }
    assert (Hek : forall idx o (Q : E -> ov -> Prop), Q (toE (m (Arr (if arb then "eng_kq" else "eng") idx))) o -> safe dp_private m (own_by [("delta_eng", 2%nat); ("prod_df", 2%nat)]) i (get (Arr (if arb then "eng_kq" else "eng") idx)) o Q).
    { intros idx o' Q HQ. apply get_shared; [reflexivity|destruct arb; reflexivity|exact HQ]. }
    assert (Hwk : forall idx o (Q : E -> ov -> Prop), Q (toE (m (Arr (if arb then "wfn_kq" else "wfn") idx))) o -> safe dp_private m (own_by [("delta_eng", 2%nat); ("prod_df", 2%nat)]) i (get (Arr (if arb then "wfn_kq" else "wfn") idx)) o Q).
    { intros idx o' Q HQ. apply get_shared; [reflexivity|destruct arb; reflexivity|exact HQ]. }
    steps. fold (int m "num_orb"). fold n.
    apply (safe_any _ _ _ _ "jj" 1 n _ (fun j o => base o /\ cells "delta_eng" (upto n i j 1) fd o /\ cells "prod_df" (upto n i j 1) fp o)); [reflexivity| | |].
    - split; [exact Hb0|]. split; (apply cells_none; [unfold upto; bools|intro; apply Ho]).
    - clear o Hb0 Ho. intros j o Hj (hb & hd & hp). destruct hb as [b1 b2]. steps.
      fold (num2 m "eng" j i) (real m "beta") (real m "mu"). set (f := occ (real m "beta") (num2 m "eng" j i) (real m "mu")). fold (int m "num_orb"). fold n.
      apply (safe_any _ _ _ _ "ll" 1 n _ (fun l o => base o /\ o (Var "jj") = Some (I j) /\ o (Var "f") = Some (N f) /\ cells "delta_eng" (upto n i j l) fd o /\ cells "prod_df" (upto n i j l) fp o)); [reflexivity| | |].
      + split; [apply Hb; [apply Hb; [split; assumption|discriminate|discriminate]|discriminate|discriminate]|]. split; [look|]. split; [look|].
        split; (apply cells_upd; [discriminate|]; apply cells_upd; [discriminate|assumption]).
      + clear o b1 b2 hd hp. intros l o Hl (hb & hj & hf & hd & hp). pose proof hb as [b1 b2]. steps.
        apply Hkk; [apply Hb; [exact hb|discriminate|discriminate]|]. step. apply Hek. steps. apply Hkk; [apply Hba; apply Hb; [exact hb|discriminate|discriminate]|]. step. apply Hek. steps.
        fold (num2 m "eng" j i) (real m "beta") (real m "mu"). change (toE (m (Arr (if arb then "eng_kq" else "eng") [l; dp_other m arb i]))) with (dp_eng m arb l i).
        set (g := occ (real m "beta") (dp_eng m arb l i) (real m "mu")). fold (int m "num_orb"). fold n.
        pose (T := fun b => smul (smul (conj (num3 m (if arb then "wfn_kq" else "wfn") b l (dp_other m arb i))) (num3 m "wfn" b j i)) (num m "phase" b)).
        apply (safe_any _ _ _ _ "ib" 1 n _ (fun b o => base o /\ o (Var "jj") = Some (I j) /\ o (Var "ll") = Some (I l) /\ o (Var "f") = Some (N f) /\ o (Var "f_q") = Some (N g) /\
          o (Var "prod") = Some (N (sum_over 1 (b - 1) T)) /\ cells "delta_eng" (upto n i j (l + 1)) fd o /\ cells "prod_df" (upto n i j l) fp o)); [reflexivity| | |].
        * split; [apply Hb; [apply Hb; [apply Hba; apply Hb; [exact hb|discriminate|discriminate]|discriminate|discriminate]|discriminate|discriminate]|].
          split; [look|]. split; [look|]. split; [look|]. split; [look|]. split; [rewrite sum_nil by lia; look|]. split.
          -- apply cells_upd; [discriminate|]. apply cells_upd; [discriminate|].
             apply (cells_put _ (upto n i j l)); [reflexivity|unfold upto; rewrite !Z.eqb_refl, (proj2 (within_true 1 (l + 1 - 1) l)) by lia; rewrite orb_true_r; reflexivity| |apply cells_upd; [discriminate|exact hd]].
             intros l' j' k' Hne. unfold upto. destruct (Z.eqb_spec k' i) as [->|]; [|reflexivity]. cbn [andb]. f_equal. destruct (Z.eqb_spec j' j) as [->|]; [|reflexivity]. cbn [andb]. bools.
          -- apply cells_upd; [discriminate|]. apply cells_upd; [discriminate|]. apply cells_upd; [discriminate|]. apply cells_upd; [discriminate|]. exact hp.
        * clear o hb b1 b2 hj hf hd hp. intros b o Hbb (hb & hj & hl & hf & hg & hs & hd & hp). pose proof hb as [b1 b2]. steps.
          apply Hkk; [apply Hb; [exact hb|discriminate|discriminate]|]. step. apply Hwk. steps.
          split; [apply Hb; [apply Hb; [exact hb|discriminate|discriminate]|discriminate|discriminate]|]. split; [look|]. split; [look|]. split; [look|]. split; [look|].
          split; [|split; (apply cells_upd; [discriminate|]; apply cells_upd; [discriminate|assumption])].
          rewrite upd_same. replace (b + 1 - 1) with b by lia. rewrite (sum_snoc SL 1 b) by lia. reflexivity.
        * clear o hb b1 b2 hj hf hd hp. intros o b -> (hb & hj & hl & hf & hg & hs & hd & hp). pose proof hb as [b1 b2]. rewrite sum_max in hs. steps.
          split; [apply Hba; apply Hb; [exact hb|discriminate|discriminate]|]. split; [look|]. split; [look|]. split.
          -- apply cells_upd; [discriminate|]. apply cells_upd; [discriminate|]. exact hd.
          -- apply (cells_put _ (upto n i j l)); [reflexivity|unfold upto; rewrite !Z.eqb_refl, (proj2 (within_true 1 (l + 1 - 1) l)) by lia; rewrite orb_true_r; reflexivity| |apply cells_upd; [discriminate|exact hp]].
             intros l' j' k' Hne. unfold upto. destruct (Z.eqb_spec k' i) as [->|]; [|reflexivity]. cbn [andb]. f_equal. destruct (Z.eqb_spec j' j) as [->|]; [|reflexivity]. cbn [andb]. bools.
      + clear o b1 b2 hd hp. intros o l -> (hb & hj & hf & hd & hp). split; [apply Hb; [exact hb|discriminate|discriminate]|].
        split; (apply cells_upd; [discriminate|]; eapply cells_ext; [|eassumption]); intros l' j' k'; unfold upto; destruct (Z.eqb_spec k' i); [|reflexivity| |reflexivity]; cbn [andb]; bools.
    - clear o Hb0 Ho. intros o j -> (hb & hd & hp) a idx. rewrite upd_other by discriminate. unfold both, only. cbn [own_by].
      destruct (String.eqb_spec a "delta_eng") as [->|]; [rewrite hd|destruct (String.eqb_spec a "prod_df") as [->|]; [rewrite hp|discriminate]].
      all: destruct idx as [|l [|j [|k [|? ?]]]]; cbn [cube nth_error String.eqb Ascii.eqb Bool.eqb]; try discriminate; try reflexivity.
      all: intro Q; injection Q as ->; unfold upto; rewrite Z.eqb_refl, (proj2 (within_true lo hi i)) by lia; cbn [andb]; rewrite andb_true_r.
      all: replace (within 1 n l && within 1 (Z.max 1 (n + 1) - 1) j || (j =? Z.max 1 (n + 1)) && within 1 (1 - 1) l) with (within 1 n l && within 1 n j) by bools.
      all: destruct (within 1 n l && within 1 n j); reflexivity.
  Qed.

  (** ** Pairs of bands, optical conductivity *)
  Theorem C97_ac_pairs occ close (m : mem) : let n := int m "num_orb" in let q := int m "i_k" in
    loop_gives ac_private "mm" (ac_body conj div occ close) 1 n m
      (both (only "delta_eng" (cube n n q q (fun l j k => Some (ssub (num2 m "eng" j k) (num2 m "eng" l k)))))
            (only "prod_df" (cube n n q q (fun l j k => if close (num2 m "eng" j k) (num2 m "eng" l k) then None else Some (ac_weight conj div occ m l j k))))).
  Proof.
    intros n q. set (fd := fun l j k => Some (ssub (num2 m "eng" j k) (num2 m "eng" l k))).
    set (fp := fun l j k => if close (num2 m "eng" j k) (num2 m "eng" l k) then None else Some (ac_weight conj div occ m l j k)).
    apply (loop_rule _ _ _ _ _ _ (own_by [("delta_eng", 1%nat); ("prod_df", 1%nat)])); [reflexivity|apply own_hidden|apply own_arr| |].
    2: { intros a idx. unfold both, only. cbn [own_by].
         destruct (String.eqb_spec a "delta_eng") as [->|]; [|destruct (String.eqb_spec a "prod_df") as [->|]; [|congruence]]; cbn [String.eqb Ascii.eqb Bool.eqb].
         all: destruct idx as [|l [|j [|k [|? ?]]]]; cbn [cube nth_error]; try congruence; destruct (within 1 n j) eqn:Hw; [|rewrite ?andb_false_r; cbn [andb]; congruence].
         all: apply within_true in Hw; intros _; exists j; split; [reflexivity|lia]. }
    intros j Hj. step. open. steps. fold (int m "i_k"). fold q. fold (num2 m "eng" j q) (real m "beta") (real m "mu"). set (ej := num2 m "eng" j q). set (fj := occ (real m "beta") ej (real m "mu")).
    fold (int m "num_orb"). fold n.
    pose (done_ := fun l l' j' k' => (k' =? q) && (j' =? j) && within 1 (l - 1) l').
    pose (base := fun o : ov (E := E) => o (Var "mm") = Some (I j) /\ o (Var "eng_m") = Some (N ej) /\ o (Var "f_m") = Some (N fj)).
    assert (Hb : forall o x v, base o -> x <> "mm" -> x <> "eng_m" -> x <> "f_m" -> base (upd o (Var x) v)).
    { intros o' x v (b1 & b2 & b3) n1 n2 n3. split; [|split]; rewrite upd_other; try assumption; congruence. }
    assert (Hba : forall o a idx v, base o -> base (upd o (Arr a idx) v)).
    { intros o' a idx v (b1 & b2 & b3). split; [|split]; rewrite upd_other; try assumption; discriminate. }
    apply (safe_any _ _ _ _ "nn" 1 n _ (fun l o => base o /\ cells "delta_eng" (done_ l) fd o /\ cells "prod_df" (done_ l) fp o)); [reflexivity| | |].
    - split; [split; [look|split; look]|]. split; (apply cells_none; [unfold done_; bools|intro; look]).
    - intros l o Hl (hb & hd & hp). pose proof hb as (b1 & b2 & b3). steps.
      fold (int m "i_k"). fold q. fold (num2 m "eng" l q) (real m "beta") (real m "mu"). set (el := num2 m "eng" l q). set (fl := occ (real m "beta") el (real m "mu")).
      fold (int m "num_orb"). fold n.
      pose (T1 := fun x y => smul (smul (conj (num3 m "wfn" x l q)) (num2 m "vmat1" x y)) (num3 m "wfn" y j q)).
      pose (T2 := fun x y => smul (smul (conj (num3 m "wfn" x j q)) (num2 m "vmat2" x y)) (num3 m "wfn" y l q)).
      assert (Hnext : forall a f o, cells a (done_ l) f o -> f l j q = None -> cells a (done_ (l + 1)) f o).
      { intros a f o' Hc Hf. apply (cells_skip a (done_ l) (done_ (l + 1)) f o' l j q Hf); [|exact Hc]. intros l' j' k' Hne. unfold done_.
        destruct (Z.eqb_spec k' q) as [->|]; [|reflexivity]. destruct (Z.eqb_spec j' j) as [->|]; [|reflexivity]. cbn [andb]. bools. }
      assert (Hput : forall a f o e, f l j q = Some e -> cells a (done_ l) f o -> cells a (done_ (l + 1)) f (upd o (Arr a [l; j; q]) (Some (N e)))).
      { intros a f o' e Hf Hc. apply (cells_put a (done_ l)); [exact Hf| | |exact Hc].
        - unfold done_. rewrite !Z.eqb_refl, (proj2 (within_true 1 (l + 1 - 1) l)) by lia. reflexivity.
        - intros l' j' k' Hne. unfold done_. destruct (Z.eqb_spec k' q) as [->|]; [|reflexivity]. destruct (Z.eqb_spec j' j) as [->|]; [|reflexivity]. cbn [andb]. bools. }
      pose (inner := fun o : ov (E := E) => base o /\ o (Var "nn") = Some (I l) /\ o (Var "eng_n") = Some (N el) /\ o (Var "f_n") = Some (N fl) /\
        cells "delta_eng" (done_ (l + 1)) fd o /\ cells "prod_df" (done_ l) fp o).
      assert (Hin : forall o x v, inner o -> In x ["prod1"; "prod2"; "ib1"; "ib2"] -> inner (upd o (Var x) v)).
      { intros o' x v (g1 & g2 & g3 & g4 & g5 & g6) Hx. cbn [In] in Hx.
        destruct Hx as [<-|[<-|[<-|[<-|[]]]]]; (split; [apply Hb; [exact g1|discriminate|discriminate|discriminate]|]); (split; [look|]); (split; [look|]); (split; [look|]);
        split; (apply cells_upd; [discriminate|assumption]). }
      apply (safe_any _ _ _ _ "ib1" 1 n _ (fun x o => inner o /\ o (Var "prod1") = Some (N (sum_over 1 (x - 1) (fun x => sum_over 1 n (T1 x)))) /\
        o (Var "prod2") = Some (N (sum_over 1 (x - 1) (fun x => sum_over 1 n (T2 x)))))); [reflexivity| | |].
      + split; [|rewrite !sum_nil by lia; split; look]. apply Hin; [|cbn; tauto]. apply Hin; [|cbn; tauto]. split.
        * apply Hb; [|discriminate|discriminate|discriminate]. apply Hba. apply Hb; [|discriminate|discriminate|discriminate]. apply Hb; [exact hb|discriminate|discriminate|discriminate].
        * split; [look|]. split; [look|]. split; [look|]. split.
          -- apply cells_upd; [discriminate|]. apply Hput; [reflexivity|]. apply cells_upd; [discriminate|]. apply cells_upd; [discriminate|exact hd].
          -- repeat (apply cells_upd; [discriminate|]). exact hp.
      + clear o hb hd hp b1 b2 b3. intros x o Hx (hi & h1 & h2). steps. fold (int m "num_orb"). fold n.
        apply (safe_any _ _ _ _ "ib2" 1 n _ (fun y o => inner o /\ o (Var "ib1") = Some (I x) /\ o (Var "prod1") = Some (N (sadd (sum_over 1 (x - 1) (fun x => sum_over 1 n (T1 x))) (sum_over 1 (y - 1) (T1 x)))) /\
          o (Var "prod2") = Some (N (sadd (sum_over 1 (x - 1) (fun x => sum_over 1 n (T2 x))) (sum_over 1 (y - 1) (T2 x)))))); [reflexivity| | |].
        * split; [apply Hin; [exact hi|cbn; tauto]|]. split; [look|]. rewrite !upd_other by discriminate. rewrite h1, h2, !(sum_nil 1 (1 - 1)) by lia. split; do 2 f_equal; ring.
        * clear o hi h1 h2. intros y o Hy (hi & hx & h1 & h2). pose proof hi as ((b1 & b2 & b3) & i2 & i3 & i4 & i5 & i6). steps.
          split; [apply Hin; [apply Hin; [apply Hin; [exact hi|cbn; tauto]|cbn; tauto]|cbn; tauto]|]. split; [look|].
          replace (y + 1 - 1) with y by lia. rewrite !(sum_snoc SL 1 y) by lia. split.
          -- rewrite upd_other by discriminate. rewrite upd_same. do 2 f_equal. unfold T1, num3, num2, q, int. ring.
          -- rewrite upd_same. do 2 f_equal. unfold T2, num3, num2, q, int. ring.
        * clear o hi h1 h2. intros o y -> (hi & hx & h1 & h2). split; [apply Hin; [exact hi|cbn; tauto]|].
          rewrite !upd_other by discriminate. rewrite h1, h2, !(sum_max 1 n). replace (x + 1 - 1) with x by lia. rewrite !(sum_snoc SL 1 x) by lia. split; reflexivity.
      + clear o hb hd hp b1 b2 b3. intros o x -> (hi & h1 & h2). rewrite (sum_max 1 n) in h1, h2. pose proof hi as ((b1 & b2 & b3) & i2 & i3 & i4 & i5 & i6). steps.
        destruct (close ej el) eqn:Hcl.
        * steps. split; [apply Hb; [exact (proj1 hi)|discriminate|discriminate|discriminate]|]. split; [apply cells_upd; [discriminate|exact i5]|].
          apply cells_upd; [discriminate|]. apply Hnext; [exact i6|]. unfold fp. fold ej el. rewrite Hcl. reflexivity.
        * steps. split; [apply Hba; apply Hb; [exact (proj1 hi)|discriminate|discriminate|discriminate]|]. split; [apply cells_upd; [discriminate|]; apply cells_upd; [discriminate|exact i5]|].
          apply Hput; [|apply cells_upd; [discriminate|exact i6]]. unfold fp. fold ej el. rewrite Hcl. reflexivity.
    - intros o l -> (hb & hd & hp) a idx. rewrite upd_other by discriminate. unfold both, only. cbn [own_by].
      destruct (String.eqb_spec a "delta_eng") as [->|]; [rewrite hd|destruct (String.eqb_spec a "prod_df") as [->|]; [rewrite hp|discriminate]].
      all: destruct idx as [|l [|j' [|k [|? ?]]]]; cbn [cube nth_error String.eqb Ascii.eqb Bool.eqb]; try discriminate; try reflexivity.
      all: intro Q; injection Q as ->; unfold done_; rewrite Z.eqb_refl, (proj2 (within_true 1 n j)) by lia; rewrite !andb_true_r.
      all: replace ((k =? q) && within 1 (Z.max 1 (n + 1) - 1) l) with (within 1 n l && within q q k) by bools.
      all: destruct (within 1 n l && within q q k); [destruct (fd l j k)||idtac|]; try reflexivity.
      all: destruct (fp l j k); reflexivity.
  Qed.
End Loops.

(** Two orbitals, one k-point: overlap (1 * 3 + 2 * 4) squared times the
    difference of occupations 1 and 0. *)
Definition ex_lind : mem Z := fun x =>
  match x with
  | Var "num_orb" => I 2
  | Arr a [b; l; k] => if String.eqb a "wfn" then N (b + 2 * (l - 1)) else N 0
  | Arr a [l; k] => if String.eqb a "eng" then N (10 * l) else N 0
  | Arr a [k] => if String.eqb a "kq_map" then I 1 else N 1
  | _ => N 15
  end.
Example C97_example_pairs :
  let s := run dp_private (repeat 0%nat 300) (launch "i_k" (dp_body (fun x => x) (fun b e mu => if e <? mu then 1 else 0) false) [[1]] [fun _ => I 99] ex_lind) in
  finished s = true /\ fst s (Arr "prod_df" [2; 1; 1]) = N (11 * 11) /\ fst s (Arr "delta_eng" [2; 1; 1]) = N (-10).
Proof. vm_compute. repeat split. Qed.
Print Assumptions C97_response.
Print Assumptions C97_pairs.
Print Assumptions C97_ac_pairs.
