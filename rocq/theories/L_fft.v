(** Proofs about the Fourier transform. *)
From Verif Require Import Prelude Vec Cx M_super M_sample M_par M_fft S_prop L_base L_super L_csr L_par L_par2 L_prop.
Local Open Scope nat_scope.

(** ** Loops whose steps touch disjoint positions *)
Section Disjoint.
  Context {A U : Type} (n : nat) (step : list A -> U -> res (list A)) (touch : U -> nat -> bool) (old new : nat -> A).
  Context (Hstep : forall u f, (forall t, t < n -> touch u t = true -> f t = old t) ->
             step (tab n f) u = Ok (tab n (fun t => if touch u t then new t else f t))).
  Lemma disjoint_loop (l : list U) : forall done,
    (forall u v t, In u l -> In v done -> touch u t = true -> touch v t = true -> False) ->
    ForallOrdPairs (fun u v => forall t, touch u t = true -> touch v t = true -> False) l ->
    (forall u, In u l -> forall f, (forall t, t < n -> touch u t = true -> f t = old t) ->
             step (tab n f) u = Ok (tab n (fun t => if touch u t then new t else f t))) ->
    loop step l (tab n (fun t => if existsb (fun u => touch u t) done then new t else old t)) =
    Ok (tab n (fun t => if existsb (fun u => touch u t) (done ++ l) then new t else old t)).
  Proof using Type.
    clear Hstep. induction l as [|u l IH]; intros done Hd Hp Hs.
    - rewrite loop_nil, app_nil_r. reflexivity.
    - rewrite loop_cons. inversion Hp as [|? ? Hu Hl]; subst. rewrite Forall_forall in Hu.
      rewrite (Hs u (or_introl eq_refl)).
      + cbn [bind]. replace (done ++ u :: l) with ((done ++ [u]) ++ l) by (rewrite <- app_assoc; reflexivity). rewrite <- IH.
        * f_equal. apply tab_ext. intros t _. rewrite existsb_app. cbn [existsb]. destruct (touch u t); [rewrite Bool.orb_true_r; reflexivity|].
          rewrite !Bool.orb_false_r. reflexivity.
        * intros v w t Hv Hw H1 H2. apply in_app_iff in Hw. destruct Hw as [Hw|[<-|[]]]; [exact (Hd v w t (or_intror Hv) Hw H1 H2)|exact (Hu v Hv t H2 H1)].
        * exact Hl.
        * intros v Hv. apply Hs. right. exact Hv.
      + intros t _ Ht. destruct (existsb _ done) eqn:He; [|reflexivity]. apply existsb_exists in He. destruct He as (v & Hv & Htv).
        destruct (Hd u v t (or_introl eq_refl) Hv Ht Htv).
  Qed.
End Disjoint.

Lemma fop_seq (P : nat -> nat -> Prop) len a : (forall i j, i < j -> P i j) -> ForallOrdPairs P (seq a len).
Proof.
  revert a. induction len as [|len IH]; intros a H; cbn [seq]; [constructor|]. constructor; [|apply IH, H].
  apply Forall_forall. intros j Hj. apply in_seq in Hj. apply H. lia.
Qed.
Lemma fop_map {A B} (g : A -> B) (P : B -> B -> Prop) l : ForallOrdPairs (fun a b => P (g a) (g b)) l -> ForallOrdPairs P (map g l).
Proof. induction 1 as [|a l Ha Hl IH]; cbn [map]; constructor; [|exact IH]. apply Forall_map. exact Ha. Qed.

(** ** Bit reversal *)
Fixpoint rev (p b : nat) : nat := match p with O => 0 | S q => rev q (b / 2) + (b mod 2) * 2 ^ q end.
Lemma rev_lt p : forall b, rev p b < 2 ^ p.
Proof.
  induction p as [|p IH]; intros b; cbn [rev Nat.pow]; [lia|]. specialize (IH (b / 2)). pose proof (Nat.mod_upper_bound b 2 ltac:(lia)).
  destruct (b mod 2) as [|[|k]]; lia.
Qed.
Lemma div2_lt b p : b < 2 ^ S p -> b / 2 < 2 ^ p.
Proof. intros H. apply Nat.div_lt_upper_bound; [lia|]. exact H. Qed.
Lemma rev_top p : forall t b, t < 2 -> b < 2 ^ p -> rev (S p) (t * 2 ^ p + b) = 2 * rev p b + t.
Proof.
  induction p as [|p IH]; intros t b Ht Hb.
  - cbn [Nat.pow] in *. assert (b = 0) by lia. subst b. cbn [rev Nat.pow]. rewrite Nat.mul_1_r, Nat.add_0_r. rewrite Nat.mod_small by lia. lia.
  - change (rev (S (S p)) (t * 2 ^ S p + b)) with (rev (S p) ((t * 2 ^ S p + b) / 2) + ((t * 2 ^ S p + b) mod 2) * 2 ^ S p).
    replace (t * 2 ^ S p + b) with (b + (t * 2 ^ p) * 2) by (cbn [Nat.pow]; lia). rewrite Nat.div_add, Nat.mod_add by lia.
    rewrite (Nat.add_comm (b / 2)). rewrite IH by (try exact Ht; apply div2_lt, Hb). cbn [rev Nat.pow]. lia.
Qed.
Lemma rev_rev p : forall b, b < 2 ^ p -> rev p (rev p b) = b.
Proof.
  induction p as [|p IH]; intros b Hb; [cbn [Nat.pow] in Hb; cbn; lia|].
  change (rev (S p) b) with (rev p (b / 2) + (b mod 2) * 2 ^ p). rewrite Nat.add_comm, rev_top; [|apply Nat.mod_upper_bound; lia|apply rev_lt].
  rewrite IH by (apply div2_lt, Hb). pose proof (Nat.div_mod b 2 ltac:(lia)). lia.
Qed.
Lemma rev_0 p : rev p 0 = 0.
Proof. induction p as [|p IH]; [reflexivity|]. cbn [rev]. change (0 / 2) with 0. change (0 mod 2) with 0. rewrite IH. reflexivity. Qed.
Lemma pow2_pos p : 0 < 2 ^ p.
Proof. induction p as [|p IH]; cbn [Nat.pow]; lia. Qed.

Lemma half_pow p : (Z.of_nat (2 ^ S p) / 2)%Z = Z.of_nat (2 ^ p).
Proof. replace (Z.of_nat (2 ^ S p)) with (Z.of_nat (2 ^ p) * 2)%Z by (cbn [Nat.pow]; lia). apply Z.div_mul. lia. Qed.
Lemma carry_ok p : forall i fuel, S i < 2 ^ S p -> p < fuel ->
  carry fuel (Z.of_nat (2 ^ p)) (Z.of_nat (rev (S p) i) + 1)%Z = Ok (Z.of_nat (rev (S p) (S i)) + 1)%Z.
Proof.
  induction p as [|p IH]; intros i fuel Hi Hf.
  - cbn [Nat.pow] in *. assert (i = 0) by lia. subst i. destruct fuel as [|fuel]; [lia|]. reflexivity.
  - destruct fuel as [|fuel]; [lia|]. pose proof (Nat.div_mod i 2 ltac:(lia)) as Hdm. pose proof (Nat.mod_upper_bound i 2 ltac:(lia)) as Hm.
    change (rev (S (S p)) i) with (rev (S p) (i / 2) + (i mod 2) * 2 ^ S p). change (rev (S (S p)) (S i)) with (rev (S p) (S i / 2) + (S i mod 2) * 2 ^ S p).
    cbn [carry]. pose proof (rev_lt (S p) (i / 2)) as Hr. destruct (i mod 2) as [|[|k]] eqn:Em; [| |lia].
    + assert (H1 : S i / 2 = i / 2) by (symmetry; apply (Nat.div_unique (S i) 2 (i / 2) 1); lia).
      assert (H2 : S i mod 2 = 1) by (symmetry; apply (Nat.mod_unique (S i) 2 (i / 2) 1); lia).
      rewrite H1, H2. replace (_ <? _)%Z with false by lia. f_equal. lia.
    + assert (H1 : S i / 2 = S (i / 2)) by (symmetry; apply (Nat.div_unique (S i) 2 (S (i / 2)) 0); lia).
      assert (H2 : S i mod 2 = 0) by (symmetry; apply (Nat.mod_unique (S i) 2 (S (i / 2)) 0); lia).
      rewrite H1, H2. replace (_ <? _)%Z with true by lia.
      rewrite half_pow.
      replace (_ - _)%Z with (Z.of_nat (rev (S p) (i / 2)) + 1)%Z by lia. rewrite IH; [f_equal; lia| |lia].
      cbn [Nat.pow] in *. lia.
Qed.

Lemma pred_S a : Z.to_nat (Z.of_nat (S a) - 1) = a.
Proof. lia. Qed.
Lemma steps_blocks j K h : 0 < h -> j < h -> steps (Z.of_nat (S j)) (Z.of_nat (K * (2 * h))) (Z.of_nat (2 * h)) = map (fun b => Z.of_nat (S (b * (2 * h) + j))) (seq 0 K).
Proof.
  intros Hh Hj. unfold steps. replace (Z.to_nat _) with K.
  - unfold zrange. rewrite map_map. apply map_ext. intros b. lia.
  - replace (Z.of_nat (K * (2 * h)) - Z.of_nat (S j))%Z with (Z.of_nat (2 * h) - Z.of_nat (S j) + (Z.of_nat K - 1) * Z.of_nat (2 * h))%Z by lia.
    rewrite Z.div_add by lia. rewrite Z.div_small by lia. lia.
Qed.
Lemma mod_block b h j : 0 < h -> j < h -> (b * (2 * h) + j) mod h = j /\ (b * (2 * h) + j + h) mod h = j.
Proof.
  intros Hh Hj. split.
  - replace (b * (2 * h) + j) with (j + (2 * b) * h) by lia. rewrite Nat.mod_add by lia. apply Nat.mod_small. exact Hj.
  - replace (b * (2 * h) + j + h) with (j + (2 * b + 1) * h) by lia. rewrite Nat.mod_add by lia. apply Nat.mod_small. exact Hj.
Qed.

Section Fft.
  Context {E : Type} {SE : Scalar E} (EL : ScalarLaws E) (rt : Z -> Z -> E).
  Add Ring ering : (s_ring E EL).
  Local Ltac swap_if := match goal with |- context [if ?b then _ else _] => destruct b end.

  Lemma wr_tab' {A} n (f : nat -> A) k v : k < n -> wr (tab n f) (Z.of_nat k) v = Ok (tab n (fun t => if Nat.eqb t k then v else f t)).
  Proof. intros H. rewrite wr_tab by exact H. f_equal. Qed.

  Lemma reversal_tab p (y : nat -> E) : reversal (tab (2 ^ p) y) = Ok (tab (2 ^ p) (fun t => y (rev p t))).
  Proof.
    unfold reversal. rewrite tab_length. set (n := 2 ^ p). pose proof (pow2_pos p) as Hn. fold n in Hn.
    match goal with |- bind (loop ?b _ _) _ = _ => set (body := b) end.
    assert (HH : forall m, m < n -> loop body (map Z.of_nat (seq 1 m)) (tab n y, 1%Z) =
       Ok (tab n (fun t => if (t <? m) || (rev p t <? m) then y (rev p t) else y t), (Z.of_nat (rev p m) + 1)%Z)).
    { induction m as [|m IH]; intros Hm.
      - cbn [seq map]. rewrite loop_nil, rev_0. do 2 f_equal.
      - rewrite seq_S, map_app, loop_app, IH by lia. cbn [bind map]. rewrite loop_cons. cbn [Nat.add]. unfold body at 1.
        pose proof (rev_lt p m) as Hrm. fold n in Hrm. pose proof (rev_rev p m ltac:(fold n; lia)) as Hrr.
        assert (Hc : carry (S n) (Z.of_nat n / 2) (Z.of_nat (rev p m) + 1) = Ok (Z.of_nat (rev p (S m)) + 1)%Z).
        { unfold n in *. clear - Hm. destruct p as [|q]; [cbn in Hm; lia|]. rewrite half_pow.
          apply carry_ok; [exact Hm|]. pose proof (Nat.pow_gt_lin_r 2 (S q) ltac:(lia)). lia. }
        match goal with |- bind (bind ?b _) _ = _ => set (sw := b) end.
        assert (Hsw : sw = Ok (tab n (fun t => if (t <? S m) || (rev p t <? S m) then y (rev p t) else y t))).
        { assert (Hinj : forall t, t < n -> rev p t = m -> t = rev p m) by (intros t Ht <-; symmetry; apply rev_rev; exact Ht).
          unfold sw. destruct (Z.of_nat (S m) <? Z.of_nat (rev p m) + 1)%Z eqn:Hlt.
          - assert (Hlt' : m < rev p m) by lia. replace (Z.of_nat (rev p m) + 1 - 1)%Z with (Z.of_nat (rev p m)) by lia.
            replace (Z.of_nat (S m) - 1)%Z with (Z.of_nat m) by lia.
            rewrite !rd_tab by lia. cbn [bind]. rewrite wr_tab' by lia. cbn [bind]. rewrite wr_tab' by lia. f_equal. apply tab_ext. intros t Ht.
            rewrite Hrr. rewrite Nat.ltb_irrefl. replace (rev p m <? m) with false by (symmetry; apply Nat.ltb_ge; lia). cbn [orb].
            destruct (Nat.eqb t m) eqn:E1; [apply Nat.eqb_eq in E1; subst t; replace (m <? S m) with true by (symmetry; apply Nat.ltb_lt; lia); reflexivity|].
            apply Nat.eqb_neq in E1. destruct (Nat.eqb t (rev p m)) eqn:E2.
            + apply Nat.eqb_eq in E2. subst t. rewrite Hrr. replace (m <? S m) with true by (symmetry; apply Nat.ltb_lt; lia). rewrite Bool.orb_true_r. reflexivity.
            + apply Nat.eqb_neq in E2. replace (t <? S m) with (t <? m). 2: { destruct (t <? m) eqn:E3; [apply Nat.ltb_lt in E3|apply Nat.ltb_ge in E3]; symmetry; [apply Nat.ltb_lt|apply Nat.ltb_ge]; lia. }
              replace (rev p t <? S m) with (rev p t <? m); [reflexivity|]. assert (rev p t <> m) by (intros H; apply E2, Hinj; assumption).
              destruct (rev p t <? m) eqn:E3; [apply Nat.ltb_lt in E3|apply Nat.ltb_ge in E3]; symmetry; [apply Nat.ltb_lt|apply Nat.ltb_ge]; lia.
          - assert (Hge : rev p m <= m) by lia. f_equal. apply tab_ext. intros t Ht.
            destruct (Nat.eq_dec t m) as [->|E1].
            + replace (m <? S m) with true by (symmetry; apply Nat.ltb_lt; lia). cbn [orb]. rewrite Nat.ltb_irrefl. cbn [orb].
              destruct (rev p m <? m) eqn:E3; [reflexivity|]. apply Nat.ltb_ge in E3. f_equal. lia.
            + destruct (Nat.eq_dec (rev p t) m) as [E2|E2].
              * rewrite E2. pose proof (Hinj t Ht E2) as Et. rewrite Et in E1 |- *. replace (m <? S m) with true by (symmetry; apply Nat.ltb_lt; lia). rewrite Bool.orb_true_r, ?Nat.ltb_irrefl.
                replace (rev p m <? m) with true by (symmetry; apply Nat.ltb_lt; lia). reflexivity.
              * replace (t <? S m) with (t <? m). 2: { destruct (t <? m) eqn:E3; [apply Nat.ltb_lt in E3|apply Nat.ltb_ge in E3]; symmetry; [apply Nat.ltb_lt|apply Nat.ltb_ge]; lia. }
                replace (rev p t <? S m) with (rev p t <? m); [reflexivity|].
                destruct (rev p t <? m) eqn:E3; [apply Nat.ltb_lt in E3|apply Nat.ltb_ge in E3]; symmetry; [apply Nat.ltb_lt|apply Nat.ltb_ge]; lia. }
        rewrite Hsw. cbn [bind]. rewrite tab_length, Hc. cbn [bind]. rewrite loop_nil. reflexivity. }
    assert (Hsp : span (1%Z, Z.of_nat n) = map Z.of_nat (seq 1 (n - 1))) by (change 1%Z with (Z.of_nat 1); apply span_seq).
    rewrite Hsp, HH by lia. cbn [bind fst]. f_equal. apply tab_ext. intros t Ht.
    destruct (t <? n - 1) eqn:E1; [reflexivity|]. cbn [orb]. apply Nat.ltb_ge in E1. assert (t = n - 1) by lia. subst t.
    destruct (rev p (n - 1) <? n - 1) eqn:E2; [reflexivity|]. apply Nat.ltb_ge in E2. pose proof (rev_lt p (n - 1)) as Hl. fold n in Hl. f_equal. lia.
  Qed.

  Lemma disjoint_all {A U} n (step : list A -> U -> res (list A)) (touch : U -> nat -> bool) (old new : nat -> A) l :
    ForallOrdPairs (fun u v => forall t, touch u t = true -> touch v t = true -> False) l ->
    (forall u, In u l -> forall f, (forall t, t < n -> touch u t = true -> f t = old t) ->
             step (tab n f) u = Ok (tab n (fun t => if touch u t then new t else f t))) ->
    forall f, (forall t, t < n -> f t = old t) ->
    loop step l (tab n f) = Ok (tab n (fun t => if existsb (fun u => touch u t) l then new t else f t)).
  Proof using Type.
    intros Hp Hs f Hf. rewrite (tab_ext n f (fun t => if existsb (fun u => touch u t) [] then new t else old t)) by exact Hf.
    rewrite (disjoint_loop n step touch old new l []); [|intros u v t _ []|exact Hp|exact Hs].
    f_equal. apply tab_ext. intros t Ht. cbn [app]. rewrite (Hf t Ht). reflexivity.
  Qed.

  (** One pass on blocks of length 2 h. *)
  Definition stage (sgn : Z) (h : nat) (y : nat -> E) (t : nat) : E :=
    if t mod (2 * h) <? h then sadd (y t) (y (t + h))
    else smul (ssub (y (t - h)) (y t)) (rt (sgn * Z.of_nat (t mod (2 * h) - h))%Z (Z.of_nat (2 * h))).

  Lemma stage_low sgn h y b r : 0 < h -> r < h -> stage sgn h y (b * (2 * h) + r) = sadd (y (b * (2 * h) + r)) (y (b * (2 * h) + r + h)).
  Proof using Type.
    intros Hh Hr. unfold stage. rewrite (Nat.add_comm (b * (2 * h)) r), Nat.mod_add by lia. rewrite Nat.mod_small by lia.
    replace (r <? h) with true by (symmetry; apply Nat.ltb_lt; exact Hr). reflexivity.
  Qed.
  Lemma stage_high sgn h y b r : 0 < h -> r < h -> stage sgn h y (b * (2 * h) + r + h) =
    smul (ssub (y (b * (2 * h) + r)) (y (b * (2 * h) + r + h))) (rt (sgn * Z.of_nat r)%Z (Z.of_nat (2 * h))).
  Proof using Type.
    intros Hh Hr. unfold stage. assert (Hm : (b * (2 * h) + r + h) mod (2 * h) = r + h).
    { replace (b * (2 * h) + r + h) with (r + h + b * (2 * h)) by lia. rewrite Nat.mod_add by lia. apply Nat.mod_small. lia. }
    rewrite Hm. replace (r + h <? h) with false by (symmetry; apply Nat.ltb_ge; lia). replace (b * (2 * h) + r + h - h) with (b * (2 * h) + r) by lia.
    replace (r + h - h) with r by lia. reflexivity.
  Qed.

  Lemma pass_tab sgn K h y : 0 < h -> pass rt sgn (Z.of_nat (2 * h)) (tab (K * (2 * h)) y) = Ok (tab (K * (2 * h)) (stage sgn h y)).
  Proof.
    intros Hh. unfold pass. rewrite tab_length. set (n := K * (2 * h)). cbv zeta.
    replace (Z.of_nat (2 * h) / 2)%Z with (Z.of_nat h) by (replace (Z.of_nat (2 * h)) with (Z.of_nat h * 2)%Z by lia; rewrite Z.div_mul by lia; reflexivity).
    replace (Z.of_nat h + 1)%Z with (Z.of_nat (S h)) by lia. change 1%Z with (Z.of_nat 1). rewrite span_seq. change (Z.of_nat 1) with 1%Z. replace (S h - 1) with h by lia. rewrite <- seq_shift, map_map.
    set (touch := fun (j : Z) (t : nat) => (Z.of_nat (t mod h) =? j - 1)%Z).
    rewrite (disjoint_all n _ touch y (stage sgn h y)).
    - f_equal. apply tab_ext. intros t Ht. replace (existsb _ _) with true; [reflexivity|]. symmetry. apply existsb_exists. exists (Z.of_nat (S (t mod h))).
      split; [|unfold touch; lia]. apply in_map_iff. exists (t mod h). split; [reflexivity|]. apply in_seq. pose proof (Nat.mod_upper_bound t h ltac:(lia)). lia.
    - apply fop_map, fop_seq. intros i j Hij t. unfold touch. lia.
    - intros u Hu f Hf. apply in_map_iff in Hu. destruct Hu as (j & <- & Hj). apply in_seq in Hj. assert (Hjh : j < h) by lia. clear Hj.
      unfold n. rewrite steps_blocks by assumption. fold n.
      set (tin := fun (i : Z) (t : nat) => (Nat.eqb t (Z.to_nat (i - 1)) || Nat.eqb t (Z.to_nat (i - 1) + h))%bool).
      set (g := fun t => if (t mod h =? j) then y t else f t).
      rewrite (disjoint_all n _ tin f (stage sgn h y)).
      + f_equal. apply tab_ext. intros t Ht. replace (existsb _ _) with (touch (Z.of_nat (S j)) t); [reflexivity|].
        destruct (touch (Z.of_nat (S j)) t) eqn:Htt; symmetry.
        * unfold touch in Htt. assert (Htm : t mod h = j) by lia. apply existsb_exists. exists (Z.of_nat (S (t / h / 2 * (2 * h) + j))). split.
          -- apply in_map_iff. exists (t / h / 2). split; [reflexivity|]. apply in_seq. split; [apply Nat.le_0_l|]. cbn [Nat.add]. apply Nat.div_lt_upper_bound; [lia|]. apply Nat.div_lt_upper_bound; [lia|]. unfold n in Ht. lia.
          -- unfold tin. rewrite pred_S.
             pose proof (Nat.div_mod t h ltac:(lia)) as H1. pose proof (Nat.div_mod (t / h) 2 ltac:(lia)) as H2. pose proof (Nat.mod_upper_bound (t / h) 2 ltac:(lia)) as H3.
             apply Bool.orb_true_iff. rewrite Htm in H1. clear - H1 H2 H3. generalize dependent ((t / h) mod 2). generalize dependent (t / h / 2). generalize dependent (t / h).
             intros Q H1 D c H2 H3. subst Q. destruct c as [|[|k]]; [left|right|lia]; apply Nat.eqb_eq; lia.
        * apply Bool.not_true_is_false. intros He. apply existsb_exists in He. destruct He as (i & Hi & Ht'). apply in_map_iff in Hi. destruct Hi as (b & <- & _).
          unfold tin in Ht'. rewrite pred_S in Ht'. unfold touch in Htt.
          destruct (mod_block b h j Hh Hjh) as [M1 M2]. apply Bool.orb_true_iff in Ht'. destruct Ht' as [Ht'|Ht']; apply Nat.eqb_eq in Ht'; subst t; [rewrite M1 in Htt|rewrite M2 in Htt]; lia.
      + apply fop_map, fop_seq. intros b b' Hb t. unfold tin. rewrite !pred_S. rewrite !Bool.orb_true_iff, !Nat.eqb_eq. nia.
      + intros i Hi f' Hf'. apply in_map_iff in Hi. destruct Hi as (b & <- & Hb). apply in_seq in Hb.
        set (P := b * (2 * h) + j). replace (Z.of_nat (S P) - 1)%Z with (Z.of_nat P) by lia. replace (Z.of_nat (S P) + Z.of_nat h - 1)%Z with (Z.of_nat (P + h)) by lia.
        assert (HP : P + h < n) by (unfold P, n; nia). rewrite !rd_tab by lia. cbn [bind]. rewrite wr_tab' by lia. cbn [bind]. rewrite wr_tab' by lia. f_equal. apply tab_ext. intros t Ht.
        destruct (mod_block b h j Hh Hjh) as [M1 M2]. fold P in M1, M2.
        assert (Htin : forall s, tin (Z.of_nat (S P)) s = (Nat.eqb s P || Nat.eqb s (P + h))%bool) by (intros s; unfold tin; rewrite pred_S; reflexivity).
        assert (F1 : f' P = y P) by (rewrite Hf' by (lia || (rewrite Htin, Nat.eqb_refl; reflexivity)); apply Hf; [lia|unfold touch; lia]).
        assert (F2 : f' (P + h) = y (P + h)) by (rewrite Hf' by (lia || (rewrite Htin, Nat.eqb_refl, Bool.orb_true_r; reflexivity)); apply Hf; [lia|unfold touch; lia]).
        rewrite F1, F2, Htin. destruct (Nat.eqb t (P + h)) eqn:E2.
        * apply Nat.eqb_eq in E2. subst t. rewrite Bool.orb_true_r. unfold P. rewrite stage_high by assumption. do 2 f_equal. lia.
        * rewrite Bool.orb_false_r. destruct (Nat.eqb t P) eqn:E1; [|reflexivity]. apply Nat.eqb_eq in E1. subst t. unfold P. rewrite stage_low by assumption. reflexivity.
      + reflexivity.
    - reflexivity.
  Qed.

  (** ** The transform *)
  Context (R_add : forall k l m, (0 < m)%Z -> rt (k + l)%Z m = smul (rt k m) (rt l m)) (R_0 : forall m, (0 < m)%Z -> rt 0%Z m = s1)
          (R_scale : forall k m, (0 < m)%Z -> rt (2 * k)%Z (2 * m)%Z = rt k m) (R_half : forall m, (0 < m)%Z -> rt m (2 * m)%Z = sopp s1).
  (** Fourier sum of length m. *)
  Definition fourier (sgn : Z) (m : nat) (y : nat -> E) (k : nat) : E :=
    sum_to m (fun r => smul (y r) (rt (sgn * (Z.of_nat r * Z.of_nat k))%Z (Z.of_nat m))).

  Lemma sum_double m (f : nat -> E) : sum_to (2 * m) f = sum_to m (fun r => sadd (f r) (f (r + m))).
  Proof.
    rewrite (sum_add EL). unfold sum_to. replace (seq 0 (2 * m)) with (seq 0 m ++ map (fun r => r + m) (seq 0 m)).
    - rewrite map_app, (esum_app EL), map_map. reflexivity.
    - replace (2 * m) with (m + m) by lia. rewrite seq_app. f_equal. rewrite <- (map_id (seq (0 + m) m)). cbn [Nat.add]. clear.
      transitivity (map (fun r => r + m) (seq 0 m)); [reflexivity|]. rewrite map_id. apply list_ext; [rewrite map_length, !seq_length; reflexivity|].
      rewrite map_length, seq_length. intros k Hk. rewrite nth_error_map. rewrite !(nth_error_nth' _ 0) by (rewrite seq_length; exact Hk). rewrite !seq_nth by exact Hk. cbn [option_map]. f_equal. lia.
  Qed.
  Lemma R_full m k : (0 < m)%Z -> rt (k * m)%Z m = s1.
  Proof.
    intros Hm. assert (H1 : rt m m = s1). { rewrite <- (R_scale m m Hm). replace (2 * m)%Z with (m + m)%Z at 1 by lia. rewrite R_add, R_half by lia. ring. }
    assert (Hn : forall k : nat, rt (Z.of_nat k * m)%Z m = s1).
    { induction k0 as [|k0 IH]; [apply R_0; exact Hm|]. replace (Z.of_nat (S k0) * m)%Z with (Z.of_nat k0 * m + m)%Z by lia. rewrite R_add, IH, H1 by exact Hm. ring. }
    destruct (Z_le_gt_dec 0 k) as [Hk|Hk]; [rewrite <- (Z2Nat.id k Hk); apply Hn|].
    transitivity (smul (rt (k * m)%Z m) (rt (Z.of_nat (Z.to_nat (- k)) * m)%Z m)); [rewrite Hn; ring|]. rewrite <- R_add by exact Hm.
    replace (_ + _)%Z with 0%Z by lia. apply R_0. exact Hm.
  Qed.

  Lemma fourier_even sgn h y b q : 0 < h ->
    fourier sgn (2 * h) (fun r => y (b * (2 * h) + r)) (2 * q) = fourier sgn h (fun r => stage sgn h y (b * (2 * h) + r)) q.
  Proof.
    intros Hh. unfold fourier. rewrite sum_double. apply sum_ext. intros r Hr. rewrite stage_low by assumption.
    replace (Z.of_nat (2 * h)) with (2 * Z.of_nat h)%Z by lia.
    replace (sgn * (Z.of_nat r * Z.of_nat (2 * q)))%Z with (2 * (sgn * (Z.of_nat r * Z.of_nat q)))%Z by lia. rewrite R_scale by lia.
    replace (sgn * (Z.of_nat (r + h) * Z.of_nat (2 * q)))%Z with (2 * (sgn * (Z.of_nat r * Z.of_nat q) + sgn * Z.of_nat q * Z.of_nat h))%Z by lia. rewrite R_scale, R_add, R_full by lia.
    rewrite Nat.add_assoc. ring.
  Qed.
  Lemma R_half_sgn sgn m : sgn = 1%Z \/ sgn = (-1)%Z -> (0 < m)%Z -> rt (sgn * m)%Z (2 * m)%Z = sopp s1.
  Proof.
    intros [->| ->] Hm; [rewrite Z.mul_1_l; apply R_half; exact Hm|]. transitivity (smul (rt (-1 * m)%Z (2 * m)%Z) (rt (1 * (2 * m))%Z (2 * m)%Z)); [rewrite R_full by lia; ring|].
    rewrite <- R_add by lia. replace (_ + _)%Z with m by lia. apply R_half. exact Hm.
  Qed.
  Lemma fourier_odd sgn h y b q : sgn = 1%Z \/ sgn = (-1)%Z -> 0 < h ->
    fourier sgn (2 * h) (fun r => y (b * (2 * h) + r)) (2 * q + 1) = fourier sgn h (fun r => stage sgn h y (b * (2 * h) + h + r)) q.
  Proof.
    intros Hs Hh. unfold fourier. rewrite sum_double. apply sum_ext. intros r Hr. replace (b * (2 * h) + h + r) with (b * (2 * h) + r + h) by lia. rewrite stage_high by assumption.
    replace (Z.of_nat (2 * h)) with (2 * Z.of_nat h)%Z by lia.
    replace (sgn * (Z.of_nat r * Z.of_nat (2 * q + 1)))%Z with (2 * (sgn * (Z.of_nat r * Z.of_nat q)) + sgn * Z.of_nat r)%Z by lia. rewrite R_add, R_scale by lia.
    replace (sgn * (Z.of_nat (r + h) * Z.of_nat (2 * q + 1)))%Z with (2 * (sgn * (Z.of_nat r * Z.of_nat q) + sgn * Z.of_nat q * Z.of_nat h) + (sgn * Z.of_nat r + sgn * Z.of_nat h))%Z by lia.
    rewrite !R_add, R_scale, R_add, R_full, R_half_sgn by (assumption || lia). rewrite Nat.add_assoc. ring.
  Qed.

  (** After s of p passes: block b holds the values of index rev s b modulo 2^s. *)
  Definition halfway (sgn : Z) (p s : nat) (x y : nat -> E) : Prop :=
    forall b q, b < 2 ^ s -> q < 2 ^ (p - s) -> fourier sgn (2 ^ (p - s)) (fun r => y (b * 2 ^ (p - s) + r)) q = fourier sgn (2 ^ p) x (rev s b + 2 ^ s * q).

  Lemma halfway_step sgn p s x y : sgn = 1%Z \/ sgn = (-1)%Z -> s < p -> halfway sgn p s x y -> halfway sgn p (S s) x (stage sgn (2 ^ (p - S s)) y).
  Proof.
    intros Hs Hsp H b q Hb Hq. set (h := 2 ^ (p - S s)) in *. assert (Hh : 0 < h) by apply pow2_pos.
    assert (E2 : 2 ^ (p - s) = 2 * h) by (unfold h; replace (p - s) with (S (p - S s)) by lia; reflexivity). unfold halfway in H. rewrite E2 in H.
    pose proof (Nat.div_mod b 2 ltac:(lia)) as Hdm. pose proof (Nat.mod_upper_bound b 2 ltac:(lia)) as Hm.
    cbn [rev]. destruct (b mod 2) as [|[|k]] eqn:Em; [| |lia].
    - replace (rev s (b / 2) + 0 * 2 ^ s + 2 ^ S s * q) with (rev s (b / 2) + 2 ^ s * (2 * q)) by (cbn [Nat.pow]; lia). rewrite <- H by (try (apply div2_lt; exact Hb); lia).
      rewrite fourier_even by exact Hh. unfold fourier. apply sum_ext. intros r _. do 2 f_equal. lia.
    - replace (rev s (b / 2) + 1 * 2 ^ s + 2 ^ S s * q) with (rev s (b / 2) + 2 ^ s * (2 * q + 1)) by (cbn [Nat.pow]; lia). rewrite <- H by (try (apply div2_lt; exact Hb); lia).
      rewrite fourier_odd by assumption. unfold fourier. apply sum_ext. intros r _. do 2 f_equal. lia.
  Qed.

  Lemma passes_tab sgn p x : sgn = 1%Z \/ sgn = (-1)%Z -> forall d s y fuel, d = p - s -> s <= p -> d < fuel -> halfway sgn p s x y ->
    exists z, passes rt fuel sgn (Z.of_nat (2 ^ d)) (tab (2 ^ p) y) = Ok (tab (2 ^ p) z) /\ halfway sgn p p x z.
  Proof.
    intros Hs d. induction d as [|d IH]; intros s y fuel Hd Hsp Hf H; (destruct fuel as [|fuel]; [lia|]); cbn [passes].
    - change (Z.of_nat (2 ^ 0) / 2)%Z with 0%Z. cbn [Z.ltb Z.compare]. exists y. split; [reflexivity|]. assert (Heq : s = p) by lia. rewrite Heq in H. exact H.
    - rewrite half_pow. pose proof (pow2_pos d) as Hpd. replace (_ <? 1)%Z with false by lia.
      assert (Hn : 2 ^ p = 2 ^ s * (2 * 2 ^ d)) by (replace p with (s + S d) by lia; rewrite Nat.pow_add_r; reflexivity).
      change (Z.of_nat (2 ^ S d)) with (Z.of_nat (2 * 2 ^ d)). rewrite Hn. rewrite pass_tab by exact Hpd. cbn [bind]. rewrite <- Hn.
      apply (IH (S s)); [lia|lia|lia|]. replace d with (p - S s) by lia. apply halfway_step; [exact Hs|lia|exact H].
  Qed.

  Lemma fft_tab sgn p x : sgn = 1%Z \/ sgn = (-1)%Z -> fft1d rt sgn (tab (2 ^ p) x) = Ok (tab (2 ^ p) (fourier sgn (2 ^ p) x)).
  Proof.
    intros Hs. unfold fft1d. rewrite tab_length. destruct (passes_tab sgn p x Hs p 0 x (S (2 ^ p))) as (z & Hz & Hh).
    - lia.
    - lia.
    - pose proof (Nat.pow_gt_lin_r 2 p ltac:(lia)). lia.
    - intros b q Hb Hq. cbn [Nat.pow] in Hb. assert (b = 0) by lia. subst b. rewrite Nat.sub_0_r. cbn [rev Nat.pow Nat.mul Nat.add]. rewrite Nat.add_0_r. reflexivity.
    - rewrite Hz. cbn [bind]. rewrite reversal_tab. f_equal. apply tab_ext. intros t Ht. specialize (Hh (rev p t) 0 (rev_lt p t)). rewrite Nat.sub_diag in Hh. cbn [Nat.pow] in Hh.
      specialize (Hh ltac:(lia)). rewrite rev_rev in Hh by exact Ht. replace (t + 2 ^ p * 0) with t in Hh by lia. rewrite <- Hh.
      unfold fourier. unfold sum_to. cbn [seq map]. rewrite esum_cons, esum_nil by assumption. rewrite Nat.mul_1_r, Nat.add_0_r. change (Z.of_nat 0 * Z.of_nat 0)%Z with 0%Z. rewrite Z.mul_0_r, R_0 by lia. ring.
  Qed.
End Fft.
