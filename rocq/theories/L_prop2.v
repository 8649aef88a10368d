(** Adjoints and eigenvectors of Chebyshev series; arrays of a sample as
    operands of the kernels. *)
From Verif Require Import Prelude Vec Cx M_super M_sample M_par M_prop S_prop S_sample L_base L_super L_csr L_prop.

Section Adj.
  Context {E : Type} {SE : Scalar E} (EL : ScalarLaws E) (conj : E -> E) (SL : StarLaws conj).
  Add Ring ering2 : (s_ring E EL).
  Notation vector := (nat -> E).

  Lemma conj_Z z : conj (sZ z) = sZ z.
  Proof.
    assert (H : forall p, conj (sZ (Zpos p)) = sZ (Zpos p)).
    { intros p. rewrite <- (Pos2Nat.id p). assert (Hn : forall k, conj (sZ (Z.of_nat k)) = sZ (Z.of_nat k)).
      { induction k as [|k IH]; [change (Z.of_nat 0) with 0; rewrite (sZ_0 E EL); apply (conj_0 EL conj SL)|].
        replace (Z.of_nat (S k)) with (Z.of_nat k + 1) by lia. rewrite (sZ_add E EL), (sZ_1 E EL), (conj_add conj SL), IH, (conj_1 conj SL). reflexivity. }
      specialize (Hn (Pos.to_nat p)). rewrite positive_nat_Z in Hn. rewrite Pos2Nat.id. exact Hn. }
    destruct z as [|p|p]; [rewrite (sZ_0 E EL); apply (conj_0 EL conj SL)|apply H|].
    change (Zneg p) with (- Zpos p). rewrite (sZ_opp E EL), (conj_opp EL conj SL), H. reflexivity.
  Qed.
  Lemma conj_pow a k : conj (pow a k) = pow (conj a) k.
  Proof. induction k as [|k IH]; cbn [pow]; [apply (conj_1 conj SL)|]. rewrite (conj_mul conj SL), IH. reflexivity. Qed.
  Lemma conj_sum n (f : nat -> E) : conj (sum_to n f) = sum_to n (fun i => conj (f i)).
  Proof. unfold sum_to. rewrite (conj_esum EL conj SL), map_map. reflexivity. Qed.

  Lemma inner_ext n (x y x' y' : vector) : (forall i, (i < n)%nat -> x i = x' i) -> (forall i, (i < n)%nat -> y i = y' i) -> inner conj n x y = inner conj n x' y'.
  Proof. intros Hx Hy. unfold inner. apply sum_ext. intros i Hi. rewrite Hx, Hy by exact Hi. reflexivity. Qed.
  Lemma inner_conj n (x y : vector) : conj (inner conj n x y) = inner conj n y x.
  Proof. unfold inner. rewrite conj_sum. apply sum_ext. intros i _. rewrite (conj_mul conj SL), (conj_conj conj SL). ring. Qed.
  Lemma inner_scale_r n c (x y : vector) : inner conj n x (fun i => smul c (y i)) = smul c (inner conj n x y).
  Proof. unfold inner. rewrite <- (sum_mul EL). apply sum_ext. intros i _. ring. Qed.
  Lemma inner_scale_l n c (x y : vector) : inner conj n (fun i => smul c (x i)) y = smul (conj c) (inner conj n x y).
  Proof. unfold inner. rewrite <- (sum_mul EL). apply sum_ext. intros i _. rewrite (conj_mul conj SL). ring. Qed.
  Lemma inner_sub_r n (x y z : vector) : inner conj n x (fun i => ssub (y i) (z i)) = ssub (inner conj n x y) (inner conj n x z).
  Proof. unfold inner. rewrite <- (sum_sub EL). apply sum_ext. intros i _. ring. Qed.
  Lemma inner_sub_l n (x y z : vector) : inner conj n (fun i => ssub (y i) (z i)) x = ssub (inner conj n y x) (inner conj n z x).
  Proof. unfold inner. rewrite <- (sum_sub EL). apply sum_ext. intros i _. rewrite (conj_sub EL conj SL). ring. Qed.
  Lemma inner_add_r n (x y z : vector) : inner conj n x (fun i => sadd (y i) (z i)) = sadd (inner conj n x y) (inner conj n x z).
  Proof. unfold inner. rewrite <- (sum_add EL). apply sum_ext. intros i _. ring. Qed.
  Lemma inner_add_l n (x y z : vector) : inner conj n (fun i => sadd (y i) (z i)) x = sadd (inner conj n y x) (inner conj n z x).
  Proof. unfold inner. rewrite <- (sum_add EL). apply sum_ext. intros i _. rewrite (conj_add conj SL). ring. Qed.
  Lemma inner_sum_r n len (x : vector) (f : nat -> vector) : inner conj n x (fun i => sum_to len (fun k => f k i)) = sum_to len (fun k => inner conj n x (f k)).
  Proof. unfold inner. rewrite (sum_swap EL). apply sum_ext. intros i _. rewrite (sum_mul EL). reflexivity. Qed.
  Lemma inner_sum_l n len (x : vector) (f : nat -> vector) : inner conj n (fun i => sum_to len (fun k => f k i)) x = sum_to len (fun k => inner conj n (f k) x).
  Proof. unfold inner. rewrite (sum_swap EL). apply sum_ext. intros i _. rewrite conj_sum, (sum_mul_r EL). reflexivity. Qed.
  Lemma inner_prod_tab n (x y : vector) : inner_prod conj (tab n x) (tab n y) = inner conj n x y.
  Proof. unfold inner_prod. rewrite zip_tab. reflexivity. Qed.

  Lemma inner_mv n h (x y : vector) : herm conj n h -> inner conj n x (mv n h y) = inner conj n (mv n h x) y.
  Proof.
    intros Hh. unfold inner, mv.
    transitivity (sum_to n (fun i => sum_to n (fun k => smul (smul (conj (x i)) (h i k)) (y k)))).
    - apply sum_ext. intros i _. rewrite <- (sum_mul EL). apply sum_ext. intros k _. ring.
    - rewrite (sum_swap EL). apply sum_ext. intros k Hk. rewrite (sum_mul_r EL). f_equal. rewrite conj_sum. apply sum_ext. intros i Hi.
      rewrite (conj_mul conj SL), (Hh i k) by assumption. ring.
  Qed.

  Lemma cheb_ext n h k (x y : vector) : (forall i, (i < n)%nat -> x i = y i) -> forall i, (i < n)%nat -> cheb n h k x i = cheb n h k y i.
  Proof.
    intros Hxy. assert (H : (forall i, (i < n)%nat -> cheb n h k x i = cheb n h k y i) /\ (forall i, (i < n)%nat -> cheb n h (S k) x i = cheb n h (S k) y i)).
    { induction k as [|k (IH0 & IH1)].
      - split; [exact Hxy|]. intros i Hi. cbn [cheb]. apply mv_ext. exact Hxy.
      - split; [exact IH1|]. intros i Hi. rewrite !cheb_SS, IH0 by exact Hi. f_equal. f_equal. apply mv_ext. exact IH1. }
    exact (proj1 H).
  Qed.
  Lemma cheb_comm n h k (x : vector) i : (i < n)%nat -> cheb n h k (mv n h x) i = mv n h (cheb n h k x) i.
  Proof.
    revert i. assert (H : (forall i, (i < n)%nat -> cheb n h k (mv n h x) i = mv n h (cheb n h k x) i) /\
                          (forall i, (i < n)%nat -> cheb n h (S k) (mv n h x) i = mv n h (cheb n h (S k) x) i)); [|exact (proj1 H)].
    induction k as [|k (IH0 & IH1)].
    - split; intros i Hi; cbn [cheb]; reflexivity.
    - split; [exact IH1|]. intros i Hi. rewrite cheb_SS, IH0 by exact Hi.
      transitivity (ssub (smul (sZ 2) (mv n h (mv n h (cheb n h (S k) x)) i)) (mv n h (cheb n h k x) i)).
      + f_equal. f_equal. apply mv_ext. exact IH1.
      + rewrite <- (mv_scale EL), <- (mv_sub EL). reflexivity.
  Qed.
  Lemma cheb_scale n h k c (x : vector) i : cheb n h k (fun j => smul c (x j)) i = smul c (cheb n h k x i).
  Proof.
    revert i. assert (H : (forall i, cheb n h k (fun j => smul c (x j)) i = smul c (cheb n h k x i)) /\
                          (forall i, cheb n h (S k) (fun j => smul c (x j)) i = smul c (cheb n h (S k) x i))); [|exact (proj1 H)].
    induction k as [|k (IH0 & IH1)].
    - split; intros i; cbn [cheb]; [reflexivity|apply (mv_scale EL)].
    - split; [exact IH1|]. intros i. rewrite !cheb_SS, IH0. rewrite (mv_ext n h _ _ i (fun j _ => IH1 j)), (mv_scale EL). ring.
  Qed.
  Lemma cheb_adj n h k : herm conj n h -> forall x y, inner conj n x (cheb n h k y) = inner conj n (cheb n h k x) y.
  Proof.
    intros Hh.
    assert (H : (forall x y, inner conj n x (cheb n h k y) = inner conj n (cheb n h k x) y) /\
                (forall x y, inner conj n x (cheb n h (S k) y) = inner conj n (cheb n h (S k) x) y)); [|exact (proj1 H)].
    induction k as [|k (IH0 & IH1)].
    - split; intros x y; cbn [cheb]; [reflexivity|apply inner_mv; exact Hh].
    - split; [exact IH1|]. intros x y. change (cheb n h (S (S k)) y) with (fun i => ssub (smul (sZ 2) (mv n h (cheb n h (S k) y) i)) (cheb n h k y i)).
      change (cheb n h (S (S k)) x) with (fun i => ssub (smul (sZ 2) (mv n h (cheb n h (S k) x) i)) (cheb n h k x i)).
      rewrite inner_sub_r, inner_sub_l, inner_scale_r, inner_scale_l, conj_Z, IH0. f_equal. f_equal.
      rewrite inner_mv by exact Hh. rewrite IH1. apply inner_ext; [|reflexivity]. intros i Hi. apply cheb_comm. exact Hi.
  Qed.

  Lemma series_adj n h c c' len : herm conj n h -> (forall k, (k < len)%nat -> conj (c k) = c' k) -> forall x y,
    inner conj n x (series n h c len y) = inner conj n (series n h c' len x) y.
  Proof.
    intros Hh Hc x y. unfold series. rewrite inner_sum_r, inner_sum_l. apply sum_ext. intros k Hk.
    rewrite inner_scale_r, inner_scale_l, <- Hc, (conj_conj conj SL), cheb_adj by assumption. reflexivity.
  Qed.
  Lemma evol_conj img fwd bes k : conj img = sopp img -> (forall b, In b bes -> conj b = b) -> conj (evol img fwd bes k) = evol img (negb fwd) bes k.
  Proof.
    intros Hi Hb. unfold evol. rewrite !(conj_mul conj SL), conj_pow.
    replace (conj (nth k bes s0)) with (nth k bes s0).
    2: { destruct (nth_in_or_default k bes s0) as [H|H]; [symmetry; apply Hb; exact H|rewrite H; symmetry; apply (conj_0 EL conj SL)]. }
    f_equal. f_equal; [destruct k; [apply (conj_1 conj SL)|apply conj_Z]|]. f_equal. destruct fwd; cbn [negb]; [rewrite (conj_opp EL conj SL), Hi; ring|exact Hi].
  Qed.

  Lemma cheb_eig n h a (x : vector) k : (forall i, (i < n)%nat -> mv n h x i = smul a (x i)) ->
    forall i, (i < n)%nat -> cheb n h k x i = smul (cheb_val a k) (x i).
  Proof.
    intros He. assert (H : (forall i, (i < n)%nat -> cheb n h k x i = smul (cheb_val a k) (x i)) /\
                           (forall i, (i < n)%nat -> cheb n h (S k) x i = smul (cheb_val a (S k)) (x i))); [|exact (proj1 H)].
    induction k as [|k (IH0 & IH1)].
    - split; intros i Hi; cbn [cheb cheb_val]; [ring|apply He; exact Hi].
    - split; [exact IH1|]. intros i Hi. rewrite cheb_SS, IH0 by exact Hi. rewrite (mv_ext n h _ _ i IH1), (mv_scale EL), He by exact Hi.
      change (cheb_val a (S (S k))) with (ssub (smul (sZ 2) (smul a (cheb_val a (S k)))) (cheb_val a k)). ring.
  Qed.
  Lemma series_eig n h c len a (x : vector) i : (forall i, (i < n)%nat -> mv n h x i = smul a (x i)) -> (i < n)%nat ->
    series n h c len x i = smul (sum_to len (fun k => smul (c k) (cheb_val a k))) (x i).
  Proof. intros He Hi. unfold series. rewrite <- (sum_mul_r EL). apply sum_ext. intros k _. rewrite (cheb_eig n h a x k He i Hi). ring. Qed.
End Adj.

(** ** Arrays with the properties of C24 *)
Section Sample.
  Context {E T : Type} {SE : Scalar E} (EL : ScalarLaws E).
  Lemma slot_row (indptr : list Z) n len : well_formed n indptr len -> forall p, (p < len)%nat ->
    exists i a b, (i < n)%nat /\ nth_error indptr i = Some a /\ nth_error indptr (S i) = Some b /\ a <= Z.of_nat p < b.
  Proof.
    intros (Hl & H0 & Hn & Hm) p Hp.
    assert (H : forall k, (k <= n)%nat -> (exists i a b, (i < k)%nat /\ nth_error indptr i = Some a /\ nth_error indptr (S i) = Some b /\ a <= Z.of_nat p < b) \/
                 exists a, nth_error indptr k = Some a /\ a <= Z.of_nat p).
    { induction k as [|k IH]; intros Hk; [right; exists 0; split; [exact H0|lia]|].
      destruct (IH ltac:(lia)) as [(i & a & b & Hi & R)|(a & Ha & Hle)]; [left; exists i, a, b; split; [lia|exact R]|].
      destruct (nth_error indptr (S k)) as [b|] eqn:Hb; [|apply nth_error_None in Hb; lia].
      destruct (Z_lt_le_dec (Z.of_nat p) b) as [Hc|Hc]; [left; exists k, a, b; repeat split; auto|right; exists b; split; auto]. }
    destruct (H n (le_n n)) as [H'|(a & Ha & Hle)]; [exact H'|]. rewrite Hn in Ha. injection Ha as <-. lia.
  Qed.
  Lemma wf_mono (indptr : list Z) n len : well_formed n indptr len -> forall i j a b, (i <= j)%nat -> nth_error indptr i = Some a -> nth_error indptr j = Some b -> a <= b.
  Proof.
    intros (Hl & H0 & Hn & Hm) i j a b Hij. revert b. induction Hij as [|j Hij IH]; intros b Ha Hb; [rewrite Ha in Hb; injection Hb as <-; lia|].
    destruct (nth_error indptr j) as [c|] eqn:Hc; [|apply nth_error_None in Hc; assert (Hx : nth_error indptr (S j) <> None) by congruence; apply nth_error_Some in Hx; lia].
    specialize (IH c Ha eq_refl). specialize (Hm j c b Hc Hb). lia.
  Qed.
  Lemma combine4_nth (ind : list Z) (hop : list E) (dx dy : list T) p k v : length hop = length ind -> length dx = length ind -> length dy = length ind ->
    nth_error ind p = Some k -> nth_error hop p = Some v -> exists x y, nth_error (combine (combine (combine ind hop) dx) dy) p = Some (k, v, x, y).
  Proof.
    intros H1 H2 H3 Hk Hv. assert (Hp : (p < length ind)%nat) by (apply nth_error_Some; congruence).
    destruct (nth_error dx p) as [x|] eqn:Hx; [|apply nth_error_None in Hx; lia]. destruct (nth_error dy p) as [y|] eqn:Hy; [|apply nth_error_None in Hy; lia].
    exists x, y. assert (G : forall A B (l : list A) (l' : list B) q a b, nth_error l q = Some a -> nth_error l' q = Some b -> nth_error (combine l l') q = Some (a, b)).
    { intros A B l. induction l as [|u l IH]; intros [|u' l'] [|q] a b; cbn; try congruence. intros Ha Hb. apply IH; assumption. }
    apply G; [apply G; [apply G|]|]; assumption.
  Qed.

  Lemma slice_map {A B} (f : A -> B) (g : nat -> B) (l : list A) a m : (a + m <= length l)%nat ->
    (forall p e, nth_error l p = Some e -> f e = g p) -> map f (firstn m (skipn a l)) = map g (seq a m).
  Proof.
    intros Hl Hf. apply list_ext; [rewrite !map_length, firstn_length, skipn_length, seq_length; lia|].
    intros k Hk. rewrite map_length, firstn_length, skipn_length in Hk.
    assert (Hk' : (k < m)%nat) by lia.
    rewrite nth_error_map, nth_error_firstn_lt, nth_error_skipn_add by exact Hk'.
    destruct (nth_error l (a + k)) as [e|] eqn:He; [|apply nth_error_None in He; lia]. cbn [option_map].
    rewrite nth_error_map, (nth_error_nth' _ 0%nat) by (rewrite seq_length; exact Hk'). rewrite seq_nth by exact Hk'. cbn [option_map]. f_equal. apply Hf. exact He.
  Qed.

  Lemma arrays_ok n (indptr ind : list Z) (hop : list E) (dx dy : list T) : well_formed n indptr (length ind) ->
    length hop = length ind -> length dx = length ind -> length dy = length ind ->
    (forall i e, 0 <= i < Z.of_nat n -> In e (csr_row indptr ind hop dx dy i) -> 0 <= e_col e < Z.of_nat n) ->
    csr_ok n indptr ind hop /\ forall i j, (i < n)%nat -> cell indptr ind hop i j = represented e_hop (csr_row indptr ind hop dx dy) (Z.of_nat i) (Z.of_nat j).
  Proof.
    intros Hwf H1 H2 H3 Hcol. pose proof Hwf as (Hl & H0 & Hn & Hm).
    assert (Hrange : forall i a b, nth_error indptr i = Some a -> nth_error indptr (S i) = Some b -> 0 <= a <= b /\ b <= Z.of_nat (length ind)).
    { intros i a b Ha Hb. assert (Hi : (S i < length indptr)%nat) by (apply nth_error_Some; congruence).
      pose proof (wf_mono _ _ _ Hwf 0 i 0 a ltac:(lia) H0 Ha). pose proof (wf_mono _ _ _ Hwf (S i) n b _ ltac:(lia) Hb Hn). pose proof (Hm i a b Ha Hb). lia. }
    assert (HL : length (combine (combine (combine ind hop) dx) dy) = length ind) by (rewrite !combine_length; lia).
    assert (Hent : forall p e, nth_error (combine (combine (combine ind hop) dx) dy) p = Some e -> e_col e = nth p ind (-1) /\ e_hop e = nth p hop s0).
    { intros p e He. assert (Hp : (p < length ind)%nat) by (rewrite <- HL; apply nth_error_Some; congruence).
      destruct (combine4_nth ind hop dx dy p (nth p ind (-1)) (nth p hop s0) H1 H2 H3) as (x & y & Hx).
      - apply nth_error_nth'; lia.
      - apply nth_error_nth'; lia.
      - rewrite He in Hx. injection Hx as ->. split; reflexivity. }
    split; [repeat split|].
    - exact Hl.
    - exact H1.
    - destruct (Hrange i a b H H4) as ((? & ?) & ?). assumption.
    - destruct (Hrange i a b H H4) as ((? & ?) & ?). assumption.
    - destruct (Hrange i a b H H4) as ((? & ?) & ?). assumption.
    - apply In_nth_error in H. destruct H as (p & Hp). assert (Hp' : (p < length ind)%nat) by (apply nth_error_Some; congruence).
      destruct (slot_row indptr n _ Hwf p Hp') as (i & a & b & Hi & Ha & Hb & Hab).
      destruct (Hrange i a b Ha Hb) as (Hra & Hrb).
      destruct (combine4_nth ind hop dx dy p k (nth p hop s0) H1 H2 H3 Hp) as (x & y & Hx); [apply nth_error_nth'; lia|].
      refine (proj1 (Hcol (Z.of_nat i) (k, nth p hop s0, x, y) _ _)); [lia|].
      unfold csr_row. rewrite Nat2Z.id, Ha, Hb. apply nth_error_In with (n := (p - Z.to_nat a)%nat).
      rewrite nth_error_firstn_lt, nth_error_skipn_add by lia. replace (Z.to_nat a + (p - Z.to_nat a))%nat with p by lia. exact Hx.
    - apply In_nth_error in H. destruct H as (p & Hp). assert (Hp' : (p < length ind)%nat) by (apply nth_error_Some; congruence).
      destruct (slot_row indptr n _ Hwf p Hp') as (i & a & b & Hi & Ha & Hb & Hab).
      destruct (Hrange i a b Ha Hb) as (Hra & Hrb).
      destruct (combine4_nth ind hop dx dy p k (nth p hop s0) H1 H2 H3 Hp) as (x & y & Hx); [apply nth_error_nth'; lia|].
      refine (proj2 (Hcol (Z.of_nat i) (k, nth p hop s0, x, y) _ _)); [lia|].
      unfold csr_row. rewrite Nat2Z.id, Ha, Hb. apply nth_error_In with (n := (p - Z.to_nat a)%nat).
      rewrite nth_error_firstn_lt, nth_error_skipn_add by lia. replace (Z.to_nat a + (p - Z.to_nat a))%nat with p by lia. exact Hx.
    - intros i j Hi. unfold cell, represented, csr_row. rewrite Nat2Z.id.
      destruct (nth_error indptr i) as [a|] eqn:Ha; [|apply nth_error_None in Ha; lia].
      destruct (nth_error indptr (S i)) as [b|] eqn:Hb; [|apply nth_error_None in Hb; lia].
      destruct (Hrange i a b Ha Hb) as (Hra & Hrb). f_equal. symmetry. apply slice_map; [lia|].
      intros p e He. destruct (Hent p e He) as (Hc & Hh). destruct e as (((c & v) & x) & y). cbn in Hc, Hh. subst. reflexivity.
  Qed.
End Sample.
