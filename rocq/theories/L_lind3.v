(** Proofs about dynamic polarization on several processes. *)
From Verif Require Import Prelude Vec Cx M_super M_sample M_hop M_pc M_sync M_build M_bloch M_par M_lat M_lind
  S_lat S_par S_lind L_base L_super L_sample L_samp2 L_csr L_par L_par2 L_gersh L_lat L_lat2 L_lind L_lind2.
From Coq Require Import Reals Permutation Lra.
Local Open Scope R_scope.
Add Ring Cr2 : (s_ring Cplx CLaws).

(** ** Values *)
Lemma occ_fermi b m e : occ b m e = fermi b m e.
Proof. unfold occ, fermi. rewrite (Rplus_comm 1). unfold Rdiv. apply Rmult_1_l. Qed.
Lemma cdiv_recip a x d : Cdiv a (Cadd (Cre x) (Cmul Ci (Cre d))) = Cmul a (crecip (x, d)).
Proof.
  unfold Cdiv, crecip. cbn [fst snd Cadd Cre Cmul Ci]. replace (x + (0 * d - 1 * 0)) with x by ring. replace (0 + (0 * 0 + 1 * d)) with d by ring. reflexivity.
Qed.
Lemma cdiv_recip' a x d : Cdiv a (Csub (Cre x) (Cmul Ci (Cre d))) = Cmul a (crecip (x, - d)).
Proof.
  unfold Cdiv, crecip. cbn [fst snd Csub Cre Cmul Ci]. replace (x - (0 * d - 1 * 0)) with x by ring. replace (0 - (0 * 0 + 1 * d)) with (- d) by ring. reflexivity.
Qed.
Lemma conj_abs2 p r : Cmul (Cmul p (Cconj p)) (Cre r) = Cre (r * abs2 p).
Proof. unfold abs2. ceq; ring. Qed.

Section Val.
  Context (no : nat) (beta mu : R).
  Definition dval (E E' : nat -> R) (j l : nat) : R := E j - E' l.
  Definition pval (ph : nat -> Cplx) (E E' : nat -> R) (U U' : nat -> nat -> Cplx) (j l : nat) : Cplx :=
    Cre ((fermi beta mu (E j) - fermi beta mu (E' l)) * abs2 (overlap no ph (U' l) (U j))).
  Lemma dp_val_spec (phase : Z -> Cplx) ek sk eq sq ph E E' U U' : (forall b, (b < no)%nat -> phase (Z.of_nat b) = ph b) ->
    (forall j, (j < no)%nat -> ek (Z.of_nat j) = E j) -> (forall j, (j < no)%nat -> eq (Z.of_nat j) = E' j) ->
    (forall j b, (j < no)%nat -> (b < no)%nat -> sk (Z.of_nat j) (Z.of_nat b) = U j b) ->
    (forall j b, (j < no)%nat -> (b < no)%nat -> sq (Z.of_nat j) (Z.of_nat b) = U' j b) ->
    forall j l, (j < no)%nat -> (l < no)%nat -> dp_val no beta mu phase ek sk eq sq (Z.of_nat j) (Z.of_nat l) = pval ph E E' U U' j l.
  Proof.
    intros Hph He Heq Hs Hsq j l Hj Hl. unfold dp_val, pval. cbv zeta. rewrite fsum_to, conj_abs2, !occ_fermi, He, Heq by assumption.
    unfold overlap. rewrite (sum_to_ext no _ (fun b => Cmul (Cmul (Cconj (U' l b)) (U j b)) (ph b))); [reflexivity|].
    intros b Hb. rewrite Hph, Hs, Hsq by assumption. reflexivity.
  Qed.
End Val.

(** ** Lists *)
Lemma Forall2_combine {A B} (P : A -> B -> Prop) l l' a b : Forall2 P l l' -> In (a, b) (combine l l') -> P a b.
Proof. induction 1 as [|x y l l' Hxy H IH]; cbn [combine]; [intros []|]. intros [Hc|Hc]; [injection Hc as -> ->; exact Hxy|apply IH, Hc]. Qed.
Lemma combine_drop {A B C} (l : list A) : forall (m : list B) (n : list C) a b c, In (a, (b, c)) (combine l (combine m n)) -> In (a, b) (combine l m).
Proof.
  induction l as [|x l IH]; intros [|y m] [|z n] a b c; cbn; try (intros []; fail); try tauto.
  intros [Hc|Hc]; [injection Hc as -> -> ->; left; reflexivity|right; eapply IH, Hc].
Qed.
Lemma map_fst_combine {A B D} (f : A -> D) (l : list A) : forall (m : list B), length l = length m -> map (fun x => f (fst x)) (combine l m) = map f l.
Proof. induction l as [|x l IH]; intros [|y m] H; try discriminate; cbn; [reflexivity|]. f_equal. apply IH. injection H as H. exact H. Qed.
Lemma map_snd_combine {A B D} (f : B -> D) (l : list A) : forall (m : list B), length l = length m -> map (fun x => f (snd x)) (combine l m) = map f m.
Proof. induction l as [|x l IH]; intros [|y m] H; try discriminate; cbn; [reflexivity|]. f_equal. apply IH. injection H as H. exact H. Qed.
Lemma Forall2_all {A B} (P : A -> B -> Prop) l : forall l', length l = length l' -> (forall a b, In a l -> In b l' -> P a b) -> Forall2 P l l'.
Proof.
  induction l as [|x l IH]; intros [|y l'] Hl H; try discriminate; constructor; [apply H; left; reflexivity|].
  apply IH; [injection Hl; auto|]. intros a b Ha Hb. apply H; right; assumption.
Qed.
Lemma Forall2_imp {A B} (P Q : A -> B -> Prop) l l' : (forall a b, P a b -> Q a b) -> Forall2 P l l' -> Forall2 Q l l'.
Proof. intros H. induction 1; constructor; auto. Qed.
Lemma mapM_exists {A B} (f : A -> res B) (P : A -> B -> Prop) l : (forall x, In x l -> exists y, f x = Ok y /\ P x y) ->
  exists ys, mapM f l = Ok ys /\ Forall2 P l ys.
Proof.
  induction l as [|x l IH]; intros H; [exists []; split; [reflexivity|constructor]|]. destruct (H x (or_introl eq_refl)) as (y & Hy & Py).
  destruct IH as (ys & Hys & HP); [intros z Hz; apply H; right; exact Hz|]. exists (y :: ys). cbn [mapM]. rewrite Hy. cbn [bind]. rewrite Hys.
  split; [reflexivity|constructor; assumption].
Qed.
Lemma Forall2_len {A B} (P : A -> B -> Prop) l l' : Forall2 P l l' -> length l = length l'.
Proof. induction 1; cbn; congruence. Qed.

(** ** Summing over processes *)
Notation dparr := (arr (Z * Z) Cplx).
Section Run.
  Context (mpi : bool) (size : Z) (Hsize : (0 < size)%Z) (Hmpi : mpi = true \/ size = 1%Z).
  Let n := Z.to_nat size.
  Lemma one_of {A} (l : list A) : length l = n -> mpi = true \/ length l = 1%nat.
  Proof. intros ->. destruct Hmpi as [->|Hs]; [left; reflexivity|right; unfold n; lia]. Qed.

  Context (no nk : nat).
  Definition local_on (ks : list Z) (D : Z -> nat -> nat -> R) (P : Z -> nat -> nat -> Cplx) (w : work) : Prop :=
    forall x j l, (j < no)%nat -> (l < no)%nat ->
      fst w (x, (Z.of_nat j, Z.of_nat l)) = (if zmem x ks then D x j l else 0) /\
      snd w (x, (Z.of_nat j, Z.of_nat l)) = (if zmem x ks then P x j l else Cre 0).
  Definition agree_on (ks : list Z) (D : Z -> nat -> nat -> R) (P : Z -> nat -> nat -> Cplx) (w : work) : Prop :=
    forall x j l, In x ks -> (j < no)%nat -> (l < no)%nat ->
      fst w (x, (Z.of_nat j, Z.of_nat l)) = D x j l /\ snd w (x, (Z.of_nat j, Z.of_nat l)) = P x j l.
  Lemma local_agree ks D P w : local_on ks D P w -> agree_on ks D P w.
  Proof. intros H x j l Hx Hj Hl. destruct (H x j l Hj Hl) as (h1 & h2). apply zmem_In in Hx. rewrite Hx in h1, h2. auto. Qed.
  Lemma two_local ks (D : Z -> Z * Z -> R) (P : Z -> Z * Z -> Cplx) D' P' w : two_at no ks D P (zeros, zeros) w ->
    (forall x j l, In x ks -> (j < no)%nat -> (l < no)%nat -> D x (Z.of_nat j, Z.of_nat l) = D' x j l /\ P x (Z.of_nat j, Z.of_nat l) = P' x j l) ->
    local_on ks D' P' w.
  Proof.
    intros H HD x j l Hj Hl. destruct (H x (Z.of_nat j, Z.of_nat l)) as (h1 & h2). unfold ins in h1, h2. cbn [fst snd] in h1, h2.
    rewrite !inr_of, !andb_true_r in h1, h2 by assumption. rewrite h1, h2. destruct (zmem x ks) eqn:Hx; [|split; reflexivity].
    apply zmem_In in Hx. apply HD; assumption.
  Qed.
  Lemma reduce_agree kss ws D P : cuts (zrange nk) kss -> length kss = n -> Forall2 (fun ks w => local_on ks D P w) kss ws ->
    length (reduce_work mpi ws) = n /\ Forall2 (fun ks w => agree_on ks D P w) kss (reduce_work mpi ws).
  Proof.
    intros Hc Hk Hw. assert (Hl : length ws = n) by (rewrite <- (Forall2_len _ _ _ Hw); exact Hk).
    assert (Hr : length (reduce_work mpi ws) = n) by (unfold reduce_work; rewrite combine_length, !length_all_reduce, !map_length; lia).
    split; [exact Hr|]. apply Forall2_all; [congruence|]. intros ks w Hks Hin x j l Hx Hj Hl'.
    destruct w as [d p]. apply In_combine_zip in Hin. destruct Hin as (Hd & Hp). cbn [fst snd].
    assert (Hxc : In x (concat kss)) by (apply in_concat; eauto).
    assert (Hnd : NoDup (concat kss)) by (rewrite Hc; apply NoDup_zrange). split.
    - assert (Ho : mpi = true \/ length (map fst ws) = 1%nat) by (apply one_of; rewrite map_length; exact Hl).
      rewrite (all_reduce_at RLaws mpi _ d Ho Hd). unfold total_arr. rewrite map_map.
      transitivity (esum (map (fun ks' => if zmem x ks' then D x j l else s0) kss)); [|apply (sum_group RLaws); assumption].
      f_equal. clear - Hw Hj Hl'. induction Hw as [|k w kss ws Hkw Hw IH]; [reflexivity|]. cbn [map]. f_equal; [apply Hkw; assumption|exact IH].
    - assert (Ho : mpi = true \/ length (map snd ws) = 1%nat) by (apply one_of; rewrite map_length; exact Hl).
      rewrite (all_reduce_at CLaws mpi _ p Ho Hp). unfold total_arr. rewrite map_map.
      transitivity (esum (map (fun ks' => if zmem x ks' then P x j l else s0) kss)); [|apply (sum_group CLaws); assumption].
      f_equal. clear - Hw Hj Hl'. induction Hw as [|k w kss ws Hkw Hw IH]; [reflexivity|]. cbn [map]. f_equal; [apply Hkw; assumption|exact IH].
  Qed.

  Context {L : Type} (l : @lind L) (Hno : n_orb (l_cell l) = no).
  Definition full (D : Z -> nat -> nat -> R) (P : Z -> nat -> nat -> Cplx) (w : R) : Cplx :=
    esum (map (fun k => sum_to no (fun j => sum_to no (fun b => Cmul (P k j b) (crecip (D k j b + w, l_delta l))))) (zrange nk)).
  Lemma finish_at kss ws dps D P iq : cuts (zrange nk) kss -> length kss = n -> length dps = n ->
    Forall2 (fun ks w => agree_on ks D P w) kss ws ->
    length (finish mpi l kss ws iq dps) = n /\ forall dp, In dp (finish mpi l kss ws iq dps) -> forall i iw,
      dp (i, iw) = if (i =? iq)%Z && inr (length (l_omegas l)) iw then full D P (nth (Z.to_nat iw) (l_omegas l) 0)
                   else esum (map (fun d : dparr => d (i, iw)) dps).
  Proof.
    intros Hc Hk Hd Hw. pose proof (Forall2_len _ _ _ Hw) as Hkw. unfold finish.
    match goal with |- context [all_reduce mpi ?x] => set (Ls := x) end.
    assert (HL : length Ls = n) by (unfold Ls; rewrite map_length, !combine_length; lia).
    split; [rewrite length_all_reduce; exact HL|]. intros dp Hin i iw. rewrite (all_reduce_at CLaws mpi Ls dp (one_of Ls HL) Hin).
    unfold total_arr, Ls. rewrite map_map. destruct ((i =? iq)%Z && inr (length (l_omegas l)) iw) eqn:Hi.
    - transitivity (esum (map (fun ks => esum (map (fun k => sum_to no (fun j => sum_to no (fun b =>
          Cmul (P k j b) (crecip (D k j b + nth (Z.to_nat iw) (l_omegas l) 0, l_delta l))))) ks)) kss)).
      + rewrite <- (map_fst_combine (fun ks => esum (map (fun k => sum_to no (fun j => sum_to no (fun b =>
          Cmul (P k j b) (crecip (D k j b + nth (Z.to_nat iw) (l_omegas l) 0, l_delta l))))) ks)) kss (combine ws dps)) by (rewrite combine_length; lia).
        f_equal. apply map_ext_in. intros (ks & w & d) Hx. cbn [fst snd]. rewrite kernel_at, Hi, ksum_eq, Hno.
        apply combine_drop in Hx. pose proof (Forall2_combine _ _ _ _ _ Hw Hx) as Ha. f_equal. apply map_ext_in. intros k Hk'.
        apply sum_to_ext. intros j Hj. apply sum_to_ext. intros b Hb. destruct (Ha k j b Hk' Hj Hb) as (h1 & h2). rewrite h1, h2.
        apply cdiv_recip.
      + rewrite (sum_groups CLaws), Hc. reflexivity.
    - rewrite <- (map_snd_combine (fun d : dparr => d (i, iw)) ws dps) by lia.
      rewrite <- (map_snd_combine (fun wd => (snd wd : dparr) (i, iw)) kss (combine ws dps)) by (rewrite combine_length; lia).
      f_equal. apply map_ext. intros (ks & w & d). cbn [fst snd]. rewrite kernel_at, Hi. reflexivity.
  Qed.

  (** The loop over q-points: rows that are done are summed again. *)
  Lemma rows_loop {X} (step : list dparr -> Z * X -> res (list dparr)) (F : Z -> Z -> Cplx) nom xs :
    (forall m x dps, nth_error xs m = Some x -> length dps = n -> exists dps', step dps (Z.of_nat m, x) = Ok dps' /\ length dps' = n /\
       forall dp, In dp dps' -> forall i iw, inr nom iw = true ->
         dp (i, iw) = if (i =? Z.of_nat m)%Z then F i iw else esum (map (fun d : dparr => d (i, iw)) dps)) ->
    forall dps0, length dps0 = n -> (forall dp, In dp dps0 -> forall i, dp i = Cre 0) ->
    exists out, loop step (enum xs) dps0 = Ok out /\ length out = n /\ forall dp, In dp out -> forall i iw, inr nom iw = true ->
      (0 <= i < Z.of_nat (length xs))%Z -> dp (i, iw) = Cmul (Cre (IZR size ^ (length xs - 1 - Z.to_nat i))) (F i iw).
  Proof.
    intros Hstep.
    assert (G : forall rest pre dps, xs = pre ++ rest -> length dps = n ->
      (forall dp, In dp dps -> forall i iw, inr nom iw = true ->
        ((0 <= i < Z.of_nat (length pre))%Z -> dp (i, iw) = Cmul (Cre (IZR size ^ (length pre - 1 - Z.to_nat i))) (F i iw)) /\
        ((Z.of_nat (length pre) <= i)%Z -> dp (i, iw) = Cre 0)) ->
      exists out, loop step (combine (map (fun j => Z.of_nat (length pre + j)) (seq 0 (length rest))) rest) dps = Ok out /\ length out = n /\
        forall dp, In dp out -> forall i iw, inr nom iw = true -> (0 <= i < Z.of_nat (length xs))%Z ->
          dp (i, iw) = Cmul (Cre (IZR size ^ (length xs - 1 - Z.to_nat i))) (F i iw)).
    { induction rest as [|x rest IH]; intros pre dps Hx Hl Hinv; cbn [length seq map combine].
      - exists dps. rewrite loop_nil. split; [reflexivity|]. split; [exact Hl|]. intros dp Hin i iw Hiw Hi. rewrite app_nil_r in Hx. subst pre.
        apply Hinv; assumption.
      - rewrite Nat.add_0_r, loop_cons. destruct (Hstep (length pre) x dps) as (dps' & -> & Hl' & Hd').
        { rewrite Hx, nth_error_app2, Nat.sub_diag by lia. reflexivity. } { exact Hl. }
        cbn [bind]. rewrite <- seq_shift, map_map.
        rewrite (map_ext _ (fun j => Z.of_nat (length (pre ++ [x]) + j))) by (intros; rewrite app_length; cbn [length]; f_equal; lia).
        apply IH; [rewrite <- app_assoc; exact Hx|exact Hl'|]. intros dp Hin i iw Hiw. rewrite (Hd' dp Hin i iw Hiw), app_length. cbn [length].
        rewrite Nat.add_1_r.
        destruct (Z.eqb_spec i (Z.of_nat (length pre))) as [->|Hne].
        + split; intros Hi; [|lia]. replace (S (length pre) - 1 - Z.to_nat (Z.of_nat (length pre)))%nat with 0%nat by lia. cbn [pow]. ceq; ring.
        + split; intros Hi.
          * rewrite (map_ext_in _ (fun _ => Cmul (Cre (IZR size ^ (length pre - 1 - Z.to_nat i))) (F i iw))).
            -- refine (eq_trans (esum_const (A := dparr) _ dps) _). match goal with |- context [IZR (Z.of_nat ?x)] => replace (Z.of_nat x) with size by (transitivity (Z.of_nat n); [unfold n; lia|rewrite <- Hl; reflexivity]) end.
               replace (S (length pre) - 1 - Z.to_nat i)%nat with (S (length pre - 1 - Z.to_nat i)) by lia. cbn [pow]. ceq; ring.
            -- intros d Hd. apply Hinv; [exact Hd|exact Hiw|lia].
          * apply (esum_zero CLaws). intros c Hin'. apply in_map_iff in Hin'. destruct Hin' as (d & <- & Hd). apply (Hinv d Hd i iw Hiw). lia. }
    intros dps0 Hl H0. unfold enum, zrange. destruct (G xs [] dps0 eq_refl Hl) as (out & H1 & H2); [|exists out; split; [exact H1|exact H2]].
    intros dp Hin i iw _. cbn [length]. split; [lia|]. intros _. apply H0, Hin.
  Qed.
End Run.
