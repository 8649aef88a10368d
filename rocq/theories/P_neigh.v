(** The search for neighbours (C48). *)
From Verif Require Import Prelude Vec M_super M_neigh S_neigh L_base L_super.
From Coq Require Import Permutation Sorted.

Lemma in_sym_range m x : In x (sym_range m) <-> - m <= x <= m.
Proof.
  unfold sym_range. rewrite in_map_iff. unfold zrange. split.
  - intros (k & <- & H). apply in_map_iff in H. destruct H as (n & <- & H). apply in_seq in H. lia.
  - intros H. exists (x + m). split; [lia|]. apply in_map_iff. exists (Z.to_nat (x + m)). split; [lia|]. apply in_seq. lia.
Qed.
Lemma sym_range_sorted m : StronglySorted Z.lt (sym_range m).
Proof.
  unfold sym_range, zrange. rewrite map_map. generalize 0%nat as s. generalize (Z.to_nat (2 * m + 1)) as n. induction n as [|n IH]; intros s; cbn [seq map]; [constructor|]. constructor; [apply IH|].
  apply Forall_forall. intros x H. apply in_map_iff in H. destruct H as (k & <- & H). apply in_seq in H. lia.
Qed.
Lemma in_neighbor_rn a b c R : In R (neighbor_rn a b c) <-> within (a, b, c) R.
Proof.
  unfold neighbor_rn. destruct R as [[x y] z]. cbn [within]. rewrite in_flat_map. split.
  - intros (x' & Hx & H). apply in_flat_map in H. destruct H as (y' & Hy & H). apply in_map_iff in H. destruct H as (z' & E1 & Hz). injection E1 as <- <- <-. apply in_sym_range in Hx, Hy, Hz. tauto.
  - intros (Hx & Hy & Hz). exists x. split; [apply in_sym_range, Hx|]. apply in_flat_map. exists y. split; [apply in_sym_range, Hy|]. apply in_map. apply in_sym_range, Hz.
Qed.
Lemma map_flat {A B} (f : A -> B) l : map f l = flat_map (fun x => [f x]) l.
Proof. induction l as [|x l IH]; [reflexivity|]. cbn [map flat_map app]. rewrite IH. reflexivity. Qed.
Lemma NoDup_app' {A} (l l' : list A) : NoDup l -> NoDup l' -> (forall x, In x l -> ~ In x l') -> NoDup (l ++ l').
Proof.
  induction 1 as [|x l Hx _ IH]; intros H' Hd; cbn [app]; [exact H'|]. constructor; [|apply IH; [exact H'|]; intros y Hy; apply Hd; right; exact Hy]. intros H. apply in_app_iff in H. destruct H as [H|H]; [contradiction|]. apply (Hd x); [left; reflexivity|exact H].
Qed.
Section Opposite.
  Context {T : Type} {ST : Scalar T} (EL : ScalarLaws T).
  Add Ring R_opp : (s_ring T EL).
  Lemma opposite (p q : vec T) (lat : mat T) x y z : vopp (vsub (vadd q (vmat (vZ (x, y, z)) lat)) p) = vsub (vadd p (vmat (vZ (- x, - y, - z)) lat)) q.
  Proof using EL.
    destruct p as [[p0 p1] p2], q as [[q0 q1] q2], lat as [[[[l0 l1] l2] [[l3 l4] l5]] [[l6 l7] l8]]. cbn [vopp vsub vadd vmat vZ]. rewrite !(sZ_opp T EL). f_equal; [f_equal|]; ring.
  Qed.
End Opposite.
Definition strictly (R R' : Z * Z * Z) : Prop := let '(a, b, c) := R in let '(x, y, z) := R' in a < x \/ (a = x /\ (b < y \/ (b = y /\ c < z))).
Lemma sorted_app {A} (Rel : A -> A -> Prop) l l' : StronglySorted Rel l -> StronglySorted Rel l' -> (forall x y, In x l -> In y l' -> Rel x y) -> StronglySorted Rel (l ++ l').
Proof.
  intros H H' Hc. induction H as [|x l Hs IH Hf]; cbn [app]; [exact H'|]. constructor; [apply IH; intros; apply Hc; [right|]; assumption|]. apply Forall_app. split; [exact Hf|]. apply Forall_forall. intros y Hy. apply Hc; [left; reflexivity|exact Hy].
Qed.
Lemma sorted_flat {A B} (Rel : A -> A -> Prop) (Rel' : B -> B -> Prop) (f : A -> list B) l : StronglySorted Rel l -> (forall x, In x l -> StronglySorted Rel' (f x)) -> (forall x y u v, Rel x y -> In u (f x) -> In v (f y) -> Rel' u v) -> StronglySorted Rel' (flat_map f l).
Proof.
  intros H Hf Hc. induction H as [|x l Hs IH Hx]; cbn [flat_map]; [constructor|]. apply sorted_app.
  - apply Hf. left. reflexivity.
  - apply IH. intros y Hy. apply Hf. right. exact Hy.
  - intros u v Hu Hv. apply in_flat_map in Hv. destruct Hv as (y & Hy & Hv). rewrite Forall_forall in Hx. apply (Hc x y); auto.
Qed.
Lemma neighbor_rn_sorted a b c : StronglySorted strictly (neighbor_rn a b c).
Proof.
  unfold neighbor_rn. apply (sorted_flat Z.lt); [apply sym_range_sorted| |].
  - intros x _. apply (sorted_flat Z.lt); [apply sym_range_sorted| |].
    + intros y _. rewrite map_flat. apply (sorted_flat Z.lt); [apply sym_range_sorted|intros; constructor; constructor|]. intros z z' u v Hz [<-|[]] [<-|[]]. cbn. lia.
    + intros y y' u v Hy Hu Hv. apply in_map_iff in Hu, Hv. destruct Hu as (z & <- & _), Hv as (z' & <- & _). cbn. lia.
  - intros x x' u v Hx Hu Hv. apply in_flat_map in Hu, Hv. destruct Hu as (y & _ & Hu), Hv as (y' & _ & Hv). apply in_map_iff in Hu, Hv. destruct Hu as (z & <- & _), Hv as (z' & <- & _). cbn. lia.
Qed.
Lemma strictly_neq R R' : strictly R R' -> R <> R'.
Proof. destruct R as [[a b] c], R' as [[x y] z]. cbn. intros H E. injection E as -> -> ->. lia. Qed.

Section Main.
  Context {T D : Type} {ST : Scalar T} (leb : D -> D -> bool) (dzero : D) (norm : vec T -> D) (near : list (vec T) -> list (vec T) -> D -> list ((Z * Z) * D)).
  Context (Hord : total_order leb) (Hkd : kd_tree leb dzero norm near).
  Notation term := (term T D).
  Definition made (bra ket : list (vec T)) (lat : mat T) (cut : D) (rn : Z * Z * Z) : list term :=
    let pk := map (fun p => vadd p (vmat (vZ rn) lat)) ket in
    flat_map (fun pd => let '((i, j), d) := pd in if negb (leb d dzero) then
      match nth_error pk (Z.to_nat j), nth_error bra (Z.to_nat i) with Some q, Some p => [{| t_rn := rn; t_pair := (i, j); t_rij := vsub q p; t_dist := d |}] | _, _ => [] end else []) (near bra pk cut).
  Lemma one_cell_ok bra ket lat cut rn : one_cell leb dzero near bra ket lat cut rn = Ok (made bra ket lat cut rn).
  Proof using Hkd.
    unfold one_cell, made. cbv zeta. apply flatM_ok. intros [[i j] d] H. destruct (leb d dzero) eqn:Q; cbn [negb]; [reflexivity|].
    apply (Hkd bra (map (fun p => vadd p (vmat (vZ rn) lat)) ket) cut) in H; [|exact Q]. destruct H as (x & y & Hi & Hj & Hx & Hy & _). rewrite Hx, Hy.
    rewrite <- (Z2Nat.id j Hj) at 1. rewrite (rd_ok _ _ _ Hy). cbn [bind]. rewrite <- (Z2Nat.id i Hi) at 1. rewrite (rd_ok _ _ _ Hx). reflexivity.
  Qed.
  Lemma in_made bra ket lat cut rn t : In t (made bra ket lat cut rn) <->
    t_rn t = rn /\ displacement bra ket lat rn (fst (t_pair t)) (snd (t_pair t)) (t_rij t) /\ t_dist t = norm (t_rij t) /\ leb (t_dist t) dzero = false /\ leb (t_dist t) cut = true.
  Proof using Hkd.
    unfold made. cbv zeta. rewrite in_flat_map. split.
    - intros ([[i j] d] & Hin & H). destruct (leb d dzero) eqn:Q; cbn [negb] in H; [destruct H|]. apply (Hkd bra _ cut) in Hin; [|exact Q]. destruct Hin as (x & y & Hi & Hj & Hx & Hy & Hd & Hc). rewrite Hx, Hy in H. destruct H as [<-|[]]. cbn [t_rn t_pair t_rij t_dist fst snd].
      split; [reflexivity|]. rewrite nth_error_map in Hy. destruct (nth_error ket (Z.to_nat j)) as [q|] eqn:Qk; [|discriminate]. cbn [option_map] in Hy. injection Hy as <-. split; [exists x, q; repeat split; assumption|]. tauto.
    - destruct t as [R [i j] v d]. cbn [t_rn t_pair t_rij t_dist fst snd]. intros (-> & (p & q & Hi & Hj & Hp & Hq & Hv) & Hd & Q & Hc). exists ((i, j), d).
      assert (Hy : nth_error (map (fun p => vadd p (vmat (vZ rn) lat)) ket) (Z.to_nat j) = Some (vadd q (vmat (vZ rn) lat))) by (rewrite nth_error_map, Hq; reflexivity). split.
      + apply (Hkd bra _ cut); [exact Q|]. exists p, (vadd q (vmat (vZ rn) lat)). rewrite <- Hv. tauto.
      + rewrite Q, Hp, Hy. cbn [negb]. left. rewrite Hv. reflexivity.
  Qed.
  Lemma nodup_made bra ket lat cut rn : NoDup (map (fun t => (t_rn t, t_pair t)) (made bra ket lat cut rn)).
  Proof using Hkd.
    unfold made. cbv zeta. destruct (Hkd bra (map (fun p => vadd p (vmat (vZ rn) lat)) ket) cut) as (Hn & _). induction (near bra (map (fun p => vadd p (vmat (vZ rn) lat)) ket) cut) as [|[[i j] d] l IH]; cbn [flat_map map]; [constructor|]. cbn [map fst] in Hn. inversion Hn as [|? ? Hni Hn']; subst.
    destruct (negb (leb d dzero)); [|apply IH, Hn']. destruct (nth_error _ (Z.to_nat j)) as [q|]; [|apply IH, Hn']. destruct (nth_error bra (Z.to_nat i)) as [p|]; [|apply IH, Hn'].
    cbn [app map t_rn t_pair]. constructor; [|apply IH, Hn']. intros H. apply Hni. apply in_map_iff in H. destruct H as (t & E1 & H). apply in_flat_map in H. destruct H as ([[i' j'] d'] & Hin & H).
    destruct (negb (leb d' dzero)); [|destruct H]. destruct (nth_error _ (Z.to_nat j')); [|destruct H]. destruct (nth_error bra (Z.to_nat i')); [|destruct H]. destruct H as [<-|[]]. cbn [t_rn t_pair] in E1. injection E1 as -> ->. apply (in_map fst) in Hin. exact Hin.
  Qed.
  Lemma tinsert_perm x (l : list term) : Permutation (tinsert leb x l) (x :: l).
  Proof using Type. induction l as [|y l IH]; cbn [tinsert]; [reflexivity|]. destruct (leb (t_dist x) (t_dist y)); [reflexivity|]. rewrite IH. apply perm_swap. Qed.
  Lemma tsort_perm (l : list term) : Permutation (tsort leb l) l.
  Proof using Type. unfold tsort. induction l as [|x l IH]; cbn [fold_right]; [reflexivity|]. rewrite tinsert_perm, IH. reflexivity. Qed.
  Definition ordered (t t' : term) : Prop := leb (t_dist t) (t_dist t') = true /\ (leb (t_dist t') (t_dist t) = true -> before (t_rn t) (t_rn t')).
  Lemma tinsert_sorted x (l : list term) : StronglySorted ordered l -> (forall y, In y l -> before (t_rn x) (t_rn y)) -> StronglySorted ordered (tinsert leb x l).
  Proof using Hord.
    destruct Hord as (Ht & Htr). induction l as [|y l IH]; cbn [tinsert]; intros Hs Hb; [constructor; constructor|]. inversion Hs as [|? ? Hs' Hf]; subst. rewrite Forall_forall in Hf. destruct (leb (t_dist x) (t_dist y)) eqn:Q.
    - constructor; [exact Hs|]. constructor; [split; [exact Q|intros _; apply Hb; left; reflexivity]|]. apply Forall_forall. intros z Hz. split; [|intros _; apply Hb; right; exact Hz]. apply (Htr _ (t_dist y)); [exact Q|]. apply Hf, Hz.
    - constructor; [apply IH; [exact Hs'|intros z Hz; apply Hb; right; exact Hz]|]. apply Forall_forall. intros z Hz. apply (Permutation_in _ (tinsert_perm x l)) in Hz. destruct Hz as [<-|Hz]; [|apply Hf, Hz].
      split; [destruct (Ht (t_dist x) (t_dist y)); congruence|congruence].
  Qed.
  Lemma tsort_sorted (l : list term) : StronglySorted (fun t t' => before (t_rn t) (t_rn t')) l -> StronglySorted ordered (tsort leb l).
  Proof using Hord.
    unfold tsort. induction 1 as [|x l Hs IH Hf]; cbn [fold_right]; [constructor|]. apply tinsert_sorted; [exact IH|]. intros y Hy. rewrite Forall_forall in Hf. apply Hf. apply (Permutation_in _ (tsort_perm l)). exact Hy.
  Qed.
  Definition compatible (bra ket : cell T) : Prop := prim bra = prim ket /\ (prim bra = true -> c_pos bra <> [] /\ c_pos ket <> []).
  (** Exactly the pairs of orbitals within the cutoff, each once, ordered by
      distance and, at equal distance, in the order of the search. *)
  Theorem C48_complete : forall (bra ket : cell T) a b c cut, compatible bra ket ->
    exists l, find_neighbors leb dzero near bra (Some ket) a b c cut = Ok l
      /\ NoDup (map (fun t => (t_rn t, t_pair t)) l)
      /\ (forall R i j v d, In {| t_rn := R; t_pair := (i, j); t_rij := v; t_dist := d |} l <-> neighbour leb dzero norm (c_pos bra) (c_pos ket) (c_lat ket) (a, b, c) cut R i j v d)
      /\ StronglySorted (fun t t' => leb (t_dist t) (t_dist t') = true /\ (leb (t_dist t') (t_dist t) = true -> before (t_rn t) (t_rn t'))) l.
  Proof using Hord Hkd.
    intros bra ket a b c cut (Hk & He). unfold find_neighbors.
    assert (Hv : (if prim bra then bind (verify_orbitals bra) (fun _ => verify_orbitals ket) else if prim ket then Err AttributeError else Ok tt) = Ok tt).
    { rewrite <- Hk. destruct (prim bra) eqn:Q; [|reflexivity]. destruct (He eq_refl) as (H1 & H2). unfold verify_orbitals. rewrite <- Hk, Q. destruct (c_pos bra); [congruence|]. destruct (c_pos ket); [congruence|]. reflexivity. }
    rewrite Hv. cbn [bind]. rewrite (flatM_ok _ (made (c_pos bra) (c_pos ket) (c_lat ket) cut)) by (intros; apply one_cell_ok). cbn [bind]. eexists. split; [reflexivity|]. split; [|split].
    - apply (Permutation_NoDup (l := map (fun t => (t_rn t, t_pair t)) (flat_map (made (c_pos bra) (c_pos ket) (c_lat ket) cut) (neighbor_rn a b c)))); [apply Permutation_map; symmetry; apply tsort_perm|].
      pose proof (neighbor_rn_sorted a b c) as Hs. induction Hs as [|R l Hs IH Hf]; cbn [flat_map map]; [constructor|]. rewrite map_app. apply NoDup_app'; [apply nodup_made|exact IH|].
      intros x Hx Hx'. apply in_map_iff in Hx, Hx'. destruct Hx as (t & <- & Ht), Hx' as (t' & E1 & Ht'). apply in_flat_map in Ht'. destruct Ht' as (R' & HR & Ht'). apply in_made in Ht, Ht'. destruct Ht as (Ht & _), Ht' as (Ht' & _). injection E1 as E1 _. rewrite Forall_forall in Hf. apply (strictly_neq R R'); [apply Hf, HR|congruence].
    - intros R i j v d. split; intros H.
      + apply (Permutation_in _ (tsort_perm _)) in H. apply in_flat_map in H. destruct H as (R' & HR & H). apply in_made in H. cbn [t_rn t_pair t_rij t_dist fst snd] in H. destruct H as (<- & H). split; [apply in_neighbor_rn, HR|exact H].
      + apply (Permutation_in _ (Permutation_sym (tsort_perm _))). apply in_flat_map. exists R. destruct H as (HR & H). split; [apply in_neighbor_rn, HR|]. apply in_made. cbn [t_rn t_pair t_rij t_dist fst snd]. split; [reflexivity|exact H].
    - apply tsort_sorted. apply (sorted_flat strictly); [apply neighbor_rn_sorted| |].
      + intros R _. assert (G : forall t, In t (made (c_pos bra) (c_pos ket) (c_lat ket) cut R) -> t_rn t = R) by (intros t Ht; apply in_made in Ht; apply Ht). induction (made (c_pos bra) (c_pos ket) (c_lat ket) cut R) as [|t l IH]; constructor; [apply IH; intros; apply G; right; assumption|].
        apply Forall_forall. intros t' Ht'. rewrite (G t), (G t') by (cbn; tauto). destruct R as [[x y] z]. cbn. lia.
      + intros R R' t t' HR Ht Ht'. apply in_made in Ht, Ht'. destruct Ht as (-> & _), Ht' as (-> & _). destruct R as [[x y] z], R' as [[x' y'] z']. cbn in *. lia.
  Qed.
  (** The ket defaults to the bra. *)
  Theorem C48_default : forall (bra : cell T) a b c cut, find_neighbors leb dzero near bra None a b c cut = find_neighbors leb dzero near bra (Some bra) a b c cut.
  Proof using Type. reflexivity. Qed.
  (** With both cells the same, neighbours come in opposite pairs. *)
  Theorem C48_mutual : ScalarLaws T -> (forall v, norm (vopp v) = norm v) -> forall (bra : cell T) a b c cut l, compatible bra bra -> find_neighbors leb dzero near bra None a b c cut = Ok l ->
    forall x y z i j v d, In {| t_rn := (x, y, z); t_pair := (i, j); t_rij := v; t_dist := d |} l -> In {| t_rn := (- x, - y, - z); t_pair := (j, i); t_rij := vopp v; t_dist := d |} l.
  Proof using Hord Hkd.
    intros EL Hn bra a b c cut l Hc Hl x y z i j v d H. rewrite C48_default in Hl. destruct (C48_complete bra bra a b c cut Hc) as (l' & E1 & _ & G & _). rewrite Hl in E1. injection E1 as <-. apply G in H. apply G. destruct H as (Hw & (p & q & Hi & Hj & Hp & Hq & Hv) & Hd & H0 & Hcut).
    split; [cbn in *; lia|]. split; [|rewrite Hn; tauto]. exists q, p. repeat split; try assumption. subst v. apply (opposite EL).
  Qed.
End Main.
Print Assumptions C48_complete.
Print Assumptions C48_default.
Print Assumptions C48_mutual.

(** Errors: cells without orbitals, cells of different kinds. *)
Theorem C48_errors : forall {T D : Type} {ST : Scalar T} (leb : D -> D -> bool) (dzero : D) near (bra ket : cell T) a b c cut,
  (prim bra = true -> prim ket = true -> c_pos bra = [] \/ c_pos ket = [] -> find_neighbors leb dzero near bra (Some ket) a b c cut = Err PCOrbEmptyError)
  /\ (prim bra = true -> prim ket = false -> c_pos bra <> [] -> find_neighbors leb dzero near bra (Some ket) a b c cut = Err AttributeError)
  /\ (prim bra = false -> prim ket = true -> find_neighbors leb dzero near bra (Some ket) a b c cut = Err AttributeError).
Proof.
  intros T D ST leb dzero near bra ket a b c cut. unfold find_neighbors, verify_orbitals. split; [|split].
  - intros -> -> H. destruct (c_pos bra); [reflexivity|]. destruct (c_pos ket); [reflexivity|]. destruct H; discriminate.
  - intros -> -> H. destruct (c_pos bra); [congruence|reflexivity].
  - intros -> ->. reflexivity.
Qed.
Print Assumptions C48_errors.

(** ** A tree that keeps its promise: comparing all pairs *)
Lemma NoDup_map_filter {A B} (f : A -> B) (g : A -> bool) l : NoDup (map f l) -> NoDup (map f (filter g l)).
Proof.
  induction l as [|x l IH]; cbn [map filter]; intros H; [constructor|]. inversion H as [|? ? Hx H']; subst. destruct (g x); [|apply IH, H']. cbn [map]. constructor; [|apply IH, H']. intros Hin. apply Hx. apply in_map_iff in Hin. destruct Hin as (y & E1 & Hy). rewrite <- E1. apply in_map. apply filter_In in Hy. apply Hy.
Qed.
Lemma list_prod_map {A B A' B'} (f : A -> A') (g : B -> B') l m : list_prod (map f l) (map g m) = map (fun ab => (f (fst ab), g (snd ab))) (list_prod l m).
Proof.
  induction l as [|x l IH]; cbn [list_prod map]; [reflexivity|]. rewrite IH, map_app, !map_map. reflexivity.
Qed.
Section Brute.
  Context {T D : Type} {ST : Scalar T} (leb : D -> D -> bool) (dzero : D) (norm : vec T -> D).
  Definition brute (p q : list (vec T)) (cut : D) : list ((Z * Z) * D) :=
    filter (fun pd => leb (snd pd) cut) (map (fun ab => ((fst (fst ab), fst (snd ab)), norm (vsub (snd (snd ab)) (snd (fst ab))))) (list_prod (enum p) (enum q))).
  Lemma brute_ok : kd_tree leb dzero norm brute.
  Proof.
    intros p q cut. split.
    - unfold brute. apply (NoDup_map_filter fst). rewrite map_map. cbn [fst].
      assert (Hn : NoDup (list_prod (zrange (length p)) (zrange (length q)))) by (apply NoDup_list_prod; apply NoDup_zrange).
      rewrite <- (enum_fst p), <- (enum_fst q) in Hn. rewrite list_prod_map in Hn. exact Hn.
    - intros i j d _. unfold brute. rewrite filter_In, in_map_iff. cbn [snd]. split.
      + intros (([[i' x] [j' y]] & E1 & H) & Hc). cbn [fst snd] in E1. injection E1 as -> -> <-. apply in_prod_iff in H. destruct H as (H1 & H2). apply enum_In in H1, H2. exists x, y. tauto.
      + intros (x & y & Hi & Hj & Hx & Hy & -> & Hc). split; [|exact Hc]. exists ((i, x), (j, y)). split; [reflexivity|]. apply in_prod_iff. split; apply enum_In; tauto.
  Qed.
End Brute.

Definition sqnorm (v : vec Z) : Z := let '(a, b, c) := v in a * a + b * b + c * c.
Lemma Zleb_order : total_order Z.leb.
Proof. split; intros; lia. Qed.
Definition honeycomb : cell Z := {| prim := true; c_pos := [(0, 0, 0); (2, 0, 0)]; c_lat := ((6, 0, 0), (0, 4, 0), (0, 0, 9)) |}.
Example C48_example : total_order Z.leb /\ kd_tree Z.leb 0 sqnorm (brute Z.leb sqnorm) /\ compatible honeycomb honeycomb /\ (forall v, sqnorm (vopp v) = sqnorm v)
  /\ match find_neighbors Z.leb 0 (brute Z.leb sqnorm) honeycomb None 1 1 0 16 with
     | Ok l => map (fun t => (t_rn t, t_pair t, t_dist t)) l =
         [((0, 0, 0), (0, 1), 4); ((0, 0, 0), (1, 0), 4); ((-1, 0, 0), (0, 1), 16); ((0, -1, 0), (0, 0), 16); ((0, -1, 0), (1, 1), 16); ((0, 1, 0), (0, 0), 16); ((0, 1, 0), (1, 1), 16); ((1, 0, 0), (1, 0), 16)]
     | Err _ => False end.
Proof.
  split; [exact Zleb_order|]. split; [apply brute_ok|]. split; [split; [reflexivity|intros _; split; discriminate]|]. split; [|vm_compute; reflexivity].
  intros [[a b] c]. cbn [vopp sqnorm sopp ZScalar]. ring.
Qed.
