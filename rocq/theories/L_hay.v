(** The Lanczos sequences and the loop that computes them. *)
From Verif Require Import Prelude Vec Cx M_super M_sample M_par M_prop S_prop S_hay L_base L_csr L_prop L_prop2 L_tbpm.
Local Open Scope Z_scope.

Section Lan.
  Context {E : Type} {SE : Scalar E} (EL : ScalarLaws E) (conj : E -> E) (SL : StarLaws conj).
  Context (inv : E -> E) (is0 : E -> bool) (re root : E -> E).
  Add Ring eringh : (s_ring E EL).
  Notation vector := (nat -> E).
  Context (n : nat) (A : vector -> vector).
  Notation dot := (inner conj n).
  Definition len (r : vector) : E := root (re (dot r r)).
  (** (v_(k-1), v_k, b_(k-1)) *)
  Definition rest (u v : vector) (b : E) : vector := fun t => ssub (ssub (A v t) (smul (dot v (A v)) (v t))) (smul b (u t)).
  Fixpoint lan (x : vector) (k : nat) : vector * vector * E :=
    match k with
    | O => (fun _ => s0, x, s0)
    | S k => let '(u, v, b) := lan x k in let r := rest u v b in (v, fun t => smul (r t) (inv (len r)), len r)
    end.
  Definition lv x k : vector := snd (fst (lan x k)).
  Definition la x k : E := dot (lv x k) (A (lv x k)).
  Definition lr x k : vector := rest (before (fun _ => s0) (lv x) k) (lv x k) (snd (lan x k)).
  Definition lb x k : E := len (lr x k).
  Lemma lan_prev x k : fst (fst (lan x k)) = before (fun _ => s0) (lv x) k.
  Proof. destruct k as [|k]; [reflexivity|]. unfold before, lv. cbn [lan]. destruct (lan x k) as [[u v] b]. reflexivity. Qed.
  Lemma lan_b x k : snd (lan x k) = before s0 (lb x) k.
  Proof. destruct k as [|k]; [reflexivity|]. unfold before, lb, lr. rewrite <- lan_prev. unfold lv. cbn [lan]. destruct (lan x k) as [[u v] b]. reflexivity. Qed.
  Lemma lv_S x k : lv x (S k) = fun t => smul (lr x k t) (inv (lb x k)).
  Proof. unfold lb, lr. rewrite <- lan_prev. unfold lv. cbn [lan]. destruct (lan x k) as [[u v] b]. reflexivity. Qed.
  Lemma lr_eq x k t : lr x k t = ssub (ssub (A (lv x k) t) (smul (la x k) (lv x k t))) (smul (before s0 (lb x) k) (before (fun _ => s0) (lv x) k t)).
  Proof. unfold lr. rewrite lan_b. reflexivity. Qed.

  (** A phase of the starting vector changes nothing. *)
  Lemma lan_phase (c : E) (Hc : smul (conj c) c = s1) (HA : forall (e : E) f g, (forall t, f t = smul e (g t)) -> forall t, A f t = smul e (A g t)) x x' :
    (forall t, x' t = smul c (x t)) -> forall k, (forall t, lv x' k t = smul c (lv x k t)) /\ (forall t, before (fun _ => s0) (lv x') k t = smul c (before (fun _ => s0) (lv x) k t)) /\
    la x' k = la x k /\ lb x' k = lb x k.
  Proof using EL SL.
    intros Hx. assert (Hin : forall f g f' g', (forall t, f' t = smul c (f t)) -> (forall t, g' t = smul c (g t)) -> dot f' g' = dot f g).
    { intros f g f' g' Hf Hg. transitivity (smul c (smul (conj c) (dot f g))).
      - rewrite <- (inner_scale_l EL conj SL), <- (inner_scale_r EL). apply (inner_ext conj); intros t _; auto.
      - transitivity (smul (smul (conj c) c) (dot f g)); [ring|]. rewrite Hc. ring. }
    assert (St : forall k, (forall t, lv x' k t = smul c (lv x k t)) -> (forall t, before (fun _ => s0) (lv x') k t = smul c (before (fun _ => s0) (lv x) k t)) -> before s0 (lb x') k = before s0 (lb x) k ->
      la x' k = la x k /\ (forall t, lr x' k t = smul c (lr x k t)) /\ lb x' k = lb x k).
    { intros k H1 H2 H3. assert (Ha : la x' k = la x k) by (unfold la; apply Hin; [exact H1|apply HA; exact H1]).
      assert (Hr : forall t, lr x' k t = smul c (lr x k t)).
      { intros t. rewrite !lr_eq, Ha, H3, (HA c _ _ H1), H1, H2. ring. }
      split; [exact Ha|]. split; [exact Hr|]. unfold lb, len. rewrite (Hin _ _ _ _ Hr Hr). reflexivity. }
    assert (All : forall k, (forall t, lv x' k t = smul c (lv x k t)) /\ (forall t, before (fun _ => s0) (lv x') k t = smul c (before (fun _ => s0) (lv x) k t)) /\ before s0 (lb x') k = before s0 (lb x) k).
    { induction k as [|k (I1 & I2 & I3)].
      - split; [exact Hx|]. split; [intros t; cbn [before]; ring|reflexivity].
      - destruct (St k I1 I2 I3) as (S1 & S2 & S3). split; [|split; [exact I1|exact S3]]. intros t. rewrite !lv_S, S2, S3. ring. }
    intros k. destruct (All k) as (A1 & A2 & A3). destruct (St k A1 A2 A3) as (S1 & _ & S3). auto.
  Qed.

  (** ** Orthogonality *)
  Context (Hsa : forall x y, dot x (A y) = dot (A x) y).
  Context (Hlen : forall r, smul (len r) (len r) = dot r r /\ conj (len r) = len r).
  Context (Hinv : forall b, is0 b = false -> smul b (inv b) = s1).
  Context (x : vector) (Hx : dot x x = s1).
  Lemma inner_add_r y u v : dot y (fun t => sadd (u t) (v t)) = sadd (dot y u) (dot y v).
  Proof using EL. clear -EL. unfold inner. rewrite <- (sum_add EL). apply sum_ext. intros i _. ring. Qed.
  Lemma inner_sub_r y u v : dot y (fun t => ssub (u t) (v t)) = ssub (dot y u) (dot y v).
  Proof using EL. clear -EL. unfold inner. rewrite <- (sum_sub EL). apply sum_ext. intros i _. ring. Qed.
  Lemma inner_mul_r y c u : dot y (fun t => smul c (u t)) = smul c (dot y u).
  Proof using EL. apply (inner_scale_r EL). Qed.
  Lemma inner_0_l y : dot (fun _ => s0) y = s0.
  Proof using EL SL. clear -EL SL. unfold inner. transitivity (sum_to n (fun _ => @s0 E SE)); [|apply (sum_0 EL)]. apply sum_ext. intros i _. rewrite (conj_0 EL conj SL). ring. Qed.
  Lemma inner_0_r y : dot y (fun _ => s0) = s0.
  Proof using EL SL. clear -EL SL. unfold inner. transitivity (sum_to n (fun _ => @s0 E SE)); [|apply (sum_0 EL)]. apply sum_ext. intros i _. ring. Qed.
  Lemma three_term k t : is0 (lb x k) = false -> A (lv x k) t =
    sadd (sadd (smul (before s0 (lb x) k) (before (fun _ => s0) (lv x) k t)) (smul (la x k) (lv x k t))) (smul (lb x k) (lv x (S k) t)).
  Proof using EL Hinv.
    intros Hb. rewrite lv_S. pose proof (Hinv _ Hb) as Hi. transitivity (sadd (sadd (smul (before s0 (lb x) k) (before (fun _ => s0) (lv x) k t)) (smul (la x k) (lv x k t))) (smul (smul (lb x k) (inv (lb x k))) (lr x k t))); [|ring].
    rewrite Hi, lr_eq. ring.
  Qed.
  Lemma lb_real k : conj (before s0 (lb x) k) = before s0 (lb x) k.
  Proof using EL SL Hlen. destruct k as [|k]; cbn [before]; [apply (conj_0 EL conj SL)|apply Hlen]. Qed.
  Lemma inv_real b : is0 b = false -> conj b = b -> conj (inv b) = inv b.
  Proof using EL SL Hinv.
    intros Hb Hr. pose proof (Hinv b Hb) as Hi. transitivity (smul (conj (inv b)) (smul b (inv b))); [rewrite Hi; ring|]. transitivity (smul (conj (smul b (inv b))) (inv b)); [rewrite (conj_mul conj SL), Hr; ring|]. rewrite Hi, (conj_1 conj SL). ring.
  Qed.
  Definition delta (i j : nat) : E := if Nat.eqb i j then s1 else s0.
  (** Overlap of A v_j with y, from the three terms. *)
  Lemma three_inner j y : is0 (lb x j) = false -> dot (A (lv x j)) y =
    sadd (sadd (smul (before s0 (lb x) j) (dot (before (fun _ => s0) (lv x) j) y)) (smul (conj (la x j)) (dot (lv x j) y))) (smul (lb x j) (dot (lv x (S j)) y)).
  Proof using EL SL Hlen Hinv.
    intros Hb. rewrite <- (inner_conj EL conj SL). transitivity (conj (dot y (fun t => sadd (sadd (smul (before s0 (lb x) j) (before (fun _ => s0) (lv x) j t)) (smul (la x j) (lv x j t))) (smul (lb x j) (lv x (S j) t))))).
    - f_equal. apply (inner_ext conj); [reflexivity|]. intros t _. apply three_term, Hb.
    - rewrite !inner_add_r, !inner_mul_r, !(conj_add conj SL), !(conj_mul conj SL), !(inner_conj EL conj SL), lb_real. replace (conj (lb x j)) with (lb x j) by (symmetry; apply Hlen). reflexivity.
  Qed.
  Lemma orthonormal k : (forall i, (i < k)%nat -> is0 (lb x i) = false) -> forall i j, (i <= k)%nat -> (j <= k)%nat -> dot (lv x i) (lv x j) = delta i j.
  Proof using EL SL Hsa Hlen Hinv Hx.
    induction k as [|k IH]; intros Hb i j Hi Hj.
    - assert (i = 0%nat) by lia. assert (j = 0%nat) by lia. subst. unfold delta. cbn [Nat.eqb]. exact Hx.
    - specialize (IH ltac:(intros; apply Hb; lia)). pose proof (Hb k ltac:(lia)) as Hbk. pose proof (Hinv _ Hbk) as Hik.
      assert (Hr : conj (lb x k) = lb x k) by apply Hlen.
      assert (Prev : forall l, (l <= k)%nat -> dot (before (fun _ => s0) (lv x) k) (lv x l) = if Nat.eqb k 0 then s0 else delta (k - 1) l).
      { intros l Hl. destruct k as [|k']; cbn [before Nat.eqb]; [apply inner_0_l|]. rewrite IH by lia. f_equal. lia. }
      assert (Prev' : forall l, (l <= k)%nat -> dot (lv x l) (before (fun _ => s0) (lv x) k) = if Nat.eqb k 0 then s0 else delta l (k - 1)).
      { intros l Hl. destruct k as [|k']; cbn [before Nat.eqb]; [apply inner_0_r|]. rewrite IH by lia. f_equal. lia. }
      assert (Hrest : forall l, (l <= k)%nat -> dot (lv x l) (lr x k) = s0).
      { intros l Hl. transitivity (ssub (ssub (dot (lv x l) (A (lv x k))) (smul (la x k) (dot (lv x l) (lv x k)))) (smul (before s0 (lb x) k) (dot (lv x l) (before (fun _ => s0) (lv x) k)))).
        - rewrite <- !inner_mul_r, <- !inner_sub_r. apply (inner_ext conj); [reflexivity|]. intros t _. apply lr_eq.
        - rewrite IH, Prev' by lia. destruct (Nat.eq_dec l k) as [->|Hlk].
          + unfold delta. rewrite Nat.eqb_refl. change (dot (lv x k) (A (lv x k))) with (la x k). destruct (Nat.eqb_spec k 0) as [->|Hk]; [ring|]. destruct (Nat.eqb_spec k (k - 1)); [lia|]. ring.
          + rewrite Hsa, three_inner by (apply Hb; lia). rewrite !IH by lia. unfold delta. destruct (Nat.eqb_spec l k); [lia|]. destruct (Nat.eqb_spec k 0); [lia|].
            assert (P0 : dot (before (fun _ => s0) (lv x) l) (lv x k) = s0).
            { destruct l as [|l']; cbn [before]; [apply inner_0_l|]. rewrite IH by lia. unfold delta. destruct (Nat.eqb_spec l' k); [lia|]. reflexivity. }
            rewrite P0. destruct (Nat.eqb_spec (S l) k) as [El|El], (Nat.eqb_spec l (k - 1)) as [El'|El']; try lia.
            * subst k. cbn [before]. ring.
            * ring. }
      assert (Hcross : forall l, (l <= k)%nat -> dot (lv x l) (lv x (S k)) = s0).
      { intros l Hl. rewrite lv_S. transitivity (smul (inv (lb x k)) (dot (lv x l) (lr x k))); [rewrite <- inner_mul_r; apply (inner_ext conj); [reflexivity|]; intros t _; ring|]. rewrite Hrest by exact Hl. ring. }
      assert (Hself : dot (lv x (S k)) (lv x (S k)) = s1).
      { rewrite lv_S. transitivity (smul (inv (lb x k)) (smul (conj (inv (lb x k))) (dot (lr x k) (lr x k)))).
        - rewrite <- (inner_scale_l EL conj SL), <- inner_mul_r. apply (inner_ext conj); intros t _; ring.
        - rewrite (inv_real _ Hbk Hr). replace (dot (lr x k) (lr x k)) with (smul (lb x k) (lb x k)) by apply Hlen. transitivity (smul (smul (lb x k) (inv (lb x k))) (smul (lb x k) (inv (lb x k)))); [ring|]. rewrite Hik. ring. }
      unfold delta. destruct (Nat.eq_dec i (S k)) as [->|Hik'], (Nat.eq_dec j (S k)) as [->|Hjk'].
      + rewrite Nat.eqb_refl. exact Hself.
      + destruct (Nat.eqb_spec (S k) j); [lia|]. rewrite <- (inner_conj EL conj SL), Hcross by lia. apply (conj_0 EL conj SL).
      + destruct (Nat.eqb_spec i (S k)); [lia|]. apply Hcross. lia.
      + apply IH; lia.
  Qed.
  Lemma la_real k : conj (la x k) = la x k.
  Proof using EL SL Hsa. unfold la. rewrite (inner_conj EL conj SL), <- Hsa. reflexivity. Qed.
  Lemma lan_tridiagonal d : (forall i, (S i < d)%nat -> is0 (lb x i) = false) -> tridiagonal conj n A d (lv x) (la x) (lb x).
  Proof using EL SL Hsa Hlen Hinv Hx.
    intros Hb. destruct d as [|d]; [split; [intros; lia|]; split; [intros; lia|]; split; intros; lia|]. split; [|split; [|split]].
    - intros i j Hi Hj. apply (orthonormal d); [intros; apply Hb; lia|lia|lia].
    - intros i Hi. split; [reflexivity|]. split; [apply la_real|apply Hlen].
    - intros i t Hi Ht. apply three_term, Hb, Hi.
    - intros i Hi. cbv zeta. transitivity (dot (lr x i) (lr x i)); [|symmetry; apply Hlen]. apply (inner_ext conj); intros t _; rewrite lr_eq; reflexivity.
  Qed.
End Lan.

(** ** The loop of Haydock_coef *)
Lemma wr_rd {A} (l : list A) p c : 0 <= p < Z.of_nat (length l) -> exists l', wr l p c = Ok l' /\ length l' = length l /\ rd l' p = Ok c /\ forall q, q <> p -> rd l' q = rd l q.
Proof.
  intros Hp. exists (set_nth (Z.to_nat p) l c). unfold wr. replace ((0 <=? p) && (p <? Z.of_nat (length l))) with true by (symmetry; lia). split; [reflexivity|]. split; [apply length_set_nth|]. split.
  - unfold rd. replace (p <? 0) with false by (symmetry; lia). rewrite nth_error_set_nth, Nat.eqb_refl. destruct (Nat.ltb_spec (Z.to_nat p) (length l)); [reflexivity|lia].
  - intros q Hq. unfold rd. destruct (Z.ltb_spec q 0); [reflexivity|]. rewrite nth_error_set_nth. destruct (Nat.eqb_spec (Z.to_nat q) (Z.to_nat p)); [lia|]. reflexivity.
Qed.
Section Run.
  Context {E : Type} {SE : Scalar E} (EL : ScalarLaws E) (conj : E -> E).
  Context (inv : E -> E) (is0 : E -> bool) (re root : E -> E).
  Add Ring eringr : (s_ring E EL).
  Context (n : nat) (m : spm E) (Hm : wf n m) (resc : E).
  Definition scaled (f : nat -> E) : nat -> E := fun i => smul resc (mv n (mat_of m) f i).
  Context (x : nat -> E) (d : nat) (Hd : (0 < d)%nat).
  Notation Lv := (lv conj inv re root n scaled x).
  Notation La := (la conj inv re root n scaled x).
  Notation Lb := (lb conj inv re root n scaled x).
  Notation Lr := (lr conj inv re root n scaled x).
  Definition upto {A} (z : A) (f : nat -> A) (k j : nat) : A := if (j <? k)%nat then f j else z.
  Lemma upto_S {A} (z : A) f k : tab d (fun j => if (j =? k)%nat then f k else upto z f k j) = tab d (upto z f (S k)).
  Proof using Type. clear. apply tab_ext. intros j _. unfold upto. destruct (Nat.eqb_spec j k) as [->|H]; [destruct (Nat.ltb_spec k (S k)); [reflexivity|lia]|]. destruct (Nat.ltb_spec j k), (Nat.ltb_spec j (S k)); try lia; reflexivity. Qed.
  Definition next (k : nat) : option (list E) := if is0 (Lb k) then None else Some (tab n (Lv (S k))).
  Lemma pdiv_next k : pdiv inv is0 (tab n (Lr k)) (Lb k) = next k.
  Proof using Type. clear. unfold pdiv, next. destruct (is0 (Lb k)); [reflexivity|]. rewrite map_tab, lv_S. reflexivity. Qed.
  Definition stt := (list (option (list E)) * Z * Z * Z * list E * list E)%type.
  Definition good (k : nat) (st : stt) : Prop :=
    let '(bf, p1, p2, pb, ca, cb) := st in
    length bf = 3%nat /\ (0 <= p1 < 3 /\ 0 <= p2 < 3 /\ 0 <= pb < 3 /\ p1 <> p2 /\ p1 <> pb /\ p2 <> pb) /\
    rd bf p1 = Ok (Some (tab n (Lv k))) /\ rd bf p2 = Ok (next k) /\
    ca = tab d (upto s0 La (S k)) /\ cb = tab d (upto s0 Lb (S k)).
  Definition hbody (st : stt) (i : Z) : res stt := let '(bf, p1, p2, pb, ca, cb) := st in
            bind (bind (rd bf p2) M_prop.num) (fun u =>
            bind (amv resc m u) (fun h =>
            let a := inner_prod conj u h in
            bind (wr ca i a) (fun ca =>
            bind (rd cb (i - 1)) (fun b0 =>
            bind (bind (rd bf p1) M_prop.num) (fun v =>
            let h := axpbypz (sopp a) u (sopp b0) v h in
            let b := norm conj re root h in
            bind (wr cb i b) (fun cb =>
            bind (wr bf pb (pdiv inv is0 h b)) (fun bf =>
            Ok (bf, p2, pb, p1, ca, cb)))))))).
  Lemma hbody_ok k st : good k st -> (S k < d)%nat ->
    if is0 (Lb k) then hbody st (Z.of_nat (S k)) = Err ZeroDivisionError
    else exists st', hbody st (Z.of_nat (S k)) = Ok st' /\ good (S k) st'.
  Proof using EL Hm Hd.
    destruct st as [[[[[bf p1] p2] pb] ca] cb]. intros (L3 & Hp & R1 & R2 & -> & ->) Hk. unfold hbody. rewrite R2. unfold next. destruct (is0 (Lb k)) eqn:E0; [reflexivity|].
    cbn [bind M_prop.num]. rewrite (amv_tab EL m n Hm). cbn [bind]. cbv zeta. rewrite inner_prod_tab, wr_tab by lia. cbn [bind].
    replace (Z.of_nat (S k) - 1) with (Z.of_nat k) by lia. rewrite rd_tab by lia. cbn [bind]. rewrite R1. cbn [bind M_prop.num].
    change (inner conj n (Lv (S k)) (fun i => smul resc (mv n (mat_of m) (Lv (S k)) i))) with (La (S k)).
    replace (upto s0 Lb (S k) k) with (Lb k) by (unfold upto; destruct (Nat.ltb_spec k (S k)); [reflexivity|lia]).
    unfold axpbypz. rewrite !zip_tab.
    assert (Er : tab n (fun i => sadd (sadd (smul (sopp (La (S k))) (Lv (S k) i)) (smul (sopp (Lb k)) (Lv k i))) (smul resc (mv n (mat_of m) (Lv (S k)) i))) = tab n (Lr (S k))).
    { apply tab_ext. intros i _. rewrite lr_eq. cbn [before]. unfold scaled. ring. }
    rewrite Er. unfold norm. rewrite inner_prod_tab. change (root (re (inner conj n (Lr (S k)) (Lr (S k))))) with (Lb (S k)).
    rewrite wr_tab by lia. cbn [bind]. rewrite pdiv_next, !upto_S.
    destruct (wr_rd bf pb (next (S k))) as (bf' & Ew & L3' & Rb & Ro); [lia|]. rewrite Ew. cbn [bind].
    eexists. split; [reflexivity|]. unfold good. rewrite L3', Rb, (Ro p2) by lia. rewrite R2. unfold next at 1. rewrite E0. repeat split; try lia; try assumption.
  Qed.
  Lemma loop_ok c : forall k st, (S k + c = d)%nat -> good k st -> (forall i, (k <= i)%nat -> (S i < d)%nat -> is0 (Lb i) = false) ->
    exists st', loop hbody (map Z.of_nat (seq (S k) c)) st = Ok st' /\ good (d - 1) st'.
  Proof using EL Hm Hd.
    induction c as [|c IH]; intros k st Hk G Hz.
    - exists st. split; [reflexivity|]. replace (d - 1)%nat with k by lia. exact G.
    - cbn [seq map]. rewrite loop_cons. pose proof (hbody_ok k st G ltac:(lia)) as Hb. rewrite Hz in Hb by lia. destruct Hb as (st' & -> & G'). cbn [bind]. apply IH; [lia|exact G'|]. intros i Hi1 Hi2. apply Hz; lia.
  Qed.
  Lemma loop_zero c : forall k st, (S k + c = d)%nat -> good k st -> (exists i, (k <= i)%nat /\ (S i < d)%nat /\ is0 (Lb i) = true) ->
    loop hbody (map Z.of_nat (seq (S k) c)) st = Err ZeroDivisionError.
  Proof using EL Hm Hd.
    induction c as [|c IH]; intros k st Hk G (i & Hi1 & Hi2 & Hi); [lia|].
    cbn [seq map]. rewrite loop_cons. pose proof (hbody_ok k st G ltac:(lia)) as Hb. destruct (is0 (Lb k)) eqn:E0; [rewrite Hb; reflexivity|]. destruct Hb as (st' & -> & G'). cbn [bind]. apply IH; [lia|exact G'|]. exists i. split; [|auto]. destruct (Nat.eq_dec i k); [congruence|lia].
  Qed.
  Lemma haydock_start : haydock_coef conj inv is0 re root (tab n x) (Z.of_nat d) m resc =
    bind (loop hbody (map Z.of_nat (seq 1 (d - 1))) ([Some (tab n x); next 0; Some (tab n (Lr 0))], 0, 1, 2, tab d (upto s0 La 1), tab d (upto s0 Lb 1)))
      (fun st => let '(_, _, _, _, ca, cb) := st in Ok (ca, cb)).
  Proof using EL Hm Hd.
    unfold haydock_coef. rewrite (amv_tab EL m n Hm). cbn [bind]. cbv zeta. rewrite inner_prod_tab, Nat2Z.id, repeat_tab. change 0 with (Z.of_nat 0). rewrite wr_tab by lia. cbn [bind].
    change (inner conj n x (fun i => smul resc (mv n (mat_of m) x i))) with (La 0).
    unfold axpy. rewrite zip_tab.
    assert (Er : tab n (fun i => sadd (smul (sopp (La 0)) (x i)) (smul resc (mv n (mat_of m) x i))) = tab n (Lr 0)).
    { apply tab_ext. intros i _. rewrite lr_eq. cbn [before]. unfold scaled, lv. cbn [lan fst snd]. ring. }
    rewrite Er. unfold norm. rewrite inner_prod_tab. change (root (re (inner conj n (Lr 0) (Lr 0)))) with (Lb 0).
    rewrite wr_tab by lia. cbn [bind]. rewrite pdiv_next.
    assert (U : forall f : nat -> E, tab d (fun j => if (j =? 0)%nat then f 0%nat else s0) = tab d (upto s0 f 1)).
    { intros f. apply tab_ext. intros j _. unfold upto. destruct j; reflexivity. }
    rewrite !U. change 1 with (Z.of_nat 1). rewrite span_seq. reflexivity.
  Qed.
  Lemma good_start : good 0 ([Some (tab n x); next 0; Some (tab n (Lr 0))], 0, 1, 2, tab d (upto s0 La 1), tab d (upto s0 Lb 1)).
  Proof using Type. clear. unfold good. cbn [length rd nth_error Z.to_nat Z.ltb]. repeat split; try lia; try reflexivity. Qed.
  Lemma upto_all (f : nat -> E) : tab d (upto s0 f (S (d - 1))) = tab d f.
  Proof using Type. clear. apply tab_ext. intros j Hj. unfold upto. destruct (Nat.ltb_spec j (S (d - 1))); [reflexivity|lia]. Qed.
  Lemma haydock_ok : (forall i, (S i < d)%nat -> is0 (Lb i) = false) -> haydock_coef conj inv is0 re root (tab n x) (Z.of_nat d) m resc = Ok (tab d La, tab d Lb).
  Proof using EL Hm Hd.
    intros Hz. rewrite haydock_start. destruct (loop_ok (d - 1) 0 _ ltac:(lia) good_start) as (st & -> & G); [intros; apply Hz; lia|]. cbn [bind]. destruct st as [[[[[bf p1] p2] pb] ca] cb]. destruct G as (_ & _ & _ & _ & -> & ->). rewrite !upto_all. reflexivity.
  Qed.
  Lemma haydock_zero : (exists i, (S i < d)%nat /\ is0 (Lb i) = true) -> haydock_coef conj inv is0 re root (tab n x) (Z.of_nat d) m resc = Err ZeroDivisionError.
  Proof using EL Hm Hd.
    intros (i & Hi & Hz). rewrite haydock_start, (loop_zero (d - 1) 0 _ ltac:(lia) good_start); [reflexivity|]. exists i. split; [lia|auto].
  Qed.
End Run.
