(** Property C86: pictures of models show the model. *)
From Coq Require Import String Permutation.
From Verif Require Import Prelude Vec Cx M_hop M_pc M_sync M_bloch M_index M_super M_view S_pc S_super S_reach S_bloch S_view L_base L_hop L_pc2 L_super L_super4 L_super6 L_bloch L_bloch2 L_lat2 L_lind3 L_view P_pc P_super.
Local Open Scope Z_scope.

Section Cell.
  Context {E T W L : Type} {SE : Scalar E} {ST : Scalar T} (TL : ScalarLaws T) (conj : E -> E) (SL : StarLaws conj) (zero : T).
  Context (big : E -> bool) (Hb : forall e, big (conj e) = big e) (lat : mat T) (org : vec T).
  Context (os : list (op E T W L)) (s : cached E T W L) (Hs : synced conj zero os s).
  Context (view : string) (look : vec T -> T * T) (Hl : forall v, eye view v = Some (look v)).
  Context (tau : Z -> vec T) (Ht : forall i o, 0 <= i -> nth_error (orbs (c_pc s)) (Z.to_nat i) = Some o -> tau i = position o).
  Notation amp := (a_hop (abs conj (c_pc s))).
  Add Ring Tr9 : (s_ring T TL).

  Lemma tau_at i : 0 <= i < num_orb (c_pc s) -> tau0 s i = tau i.
  Proof.
    intros Hi. unfold num_orb in Hi. destruct (nth_error (orbs (c_pc s)) (Z.to_nat i)) as [o|] eqn:Eo; [|apply nth_error_None in Eo; lia].
    rewrite (Ht i o ltac:(lia) Eo). unfold tau0. exact (at_pos_synced conj zero os s Hs i o Eo).
  Qed.
  Lemma no_hop : num_hop (hop (c_pc s)) = 0%nat -> c_hop s = [].
  Proof.
    destruct Hs as (_ & _ & _ & H). rewrite H, num_hop_length. apply length_zero_iff_nil.
  Qed.

  Notation lattice o := (if o_cells o then axes_seen lat org look view else []).
  Notation hop_seen := (hop_seen lat org look tau).

  Lemma corner_site w a b : view_dims view = Ok w -> (forall v, proj w v = look v) ->
    corner w lat org a b = look (site lat org (s0, s0, s0) (flat view a b)).
  Proof.
    intros Hw Hp. unfold corner. rewrite Hp. f_equal. unfold site.
    assert (Er : restore w a b = flat view a b).
    { apply view_cases in Hw. destruct Hw as [[-> ->]|[[-> ->]|[[-> ->]|[[-> ->]|[[-> ->]|[-> ->]]]]]]; reflexivity. }
    rewrite Er. destruct (flat view a b) as [[x y] z], lat as [[[[a1 a2] a3] [[b1 b2] b3]] [[c1 c2] c3]], org as [[o1 o2] o3].
    cbn [vZ vadd vmat]. repeat (f_equal; try ring).
  Qed.
  Lemma corner_org w : view_dims view = Ok w -> (forall v, proj w v = look v) -> proj w org = look org.
  Proof. intros _ H. apply H. Qed.

  Definition ax (d : Z) (R : Z * Z * Z) : Z := let '(a, b, c) := R in if d =? 0 then a else if d =? 1 then b else c.
  Lemma shown_spec cj R : In R (cells_shown s cj) <-> forall d, 0 <= d < 3 -> let '(lo, hi) := rn_range s cj d in lo <= ax d R <= hi.
  Proof.
    unfold cells_shown. destruct (rn_range s cj 0) as [a0 a1] eqn:E0, (rn_range s cj 1) as [b0 b1] eqn:E1, (rn_range s cj 2) as [c0 c1] eqn:E2.
    destruct R as [[a b] c]. rewrite in_flat_map. split.
    - intros (x & Hx & H). apply in_flat_map in H. destruct H as (y & Hy & H). apply in_map_iff in H. destruct H as (z & H & Hz). injection H as -> -> ->.
      apply In_pyrange in Hx, Hy, Hz. intros d Hd. assert (d = 0 \/ d = 1 \/ d = 2) as [->|[->| ->]] by lia; [rewrite E0|rewrite E1|rewrite E2]; cbn [ax Z.eqb Pos.eqb]; lia.
    - intros H. pose proof (H 0 ltac:(lia)) as H0. pose proof (H 1 ltac:(lia)) as H1. pose proof (H 2 ltac:(lia)) as H2. rewrite E0 in H0. rewrite E1 in H1. rewrite E2 in H2.
      cbn [ax Z.eqb Pos.eqb] in *. exists a. split; [apply In_pyrange; lia|]. apply in_flat_map. exists b. split; [apply In_pyrange; lia|]. apply in_map_iff. exists c. split; [reflexivity|apply In_pyrange; lia].
  Qed.
  Lemma nodup_flat {A B} (f : A -> list B) (key : B -> A) l : NoDup l -> (forall a, In a l -> NoDup (f a)) -> (forall a b, In b (f a) -> key b = a) -> NoDup (flat_map f l).
  Proof.
    intros Hn Hf Hk. induction l as [|a l IH]; cbn [flat_map]; [constructor|]. inversion Hn; subst. apply NoDup_app2.
    - apply Hf. left. reflexivity.
    - apply IH; [assumption|]. intros. apply Hf. right. assumption.
    - intros x Hx Hy. apply in_flat_map in Hy. destruct Hy as (b & Hb' & Hy). apply Hk in Hx, Hy. congruence.
  Qed.
  Lemma shown_nodup cj : NoDup (cells_shown s cj).
  Proof.
    unfold cells_shown. destruct (rn_range s cj 0) as [a0 a1], (rn_range s cj 1) as [b0 b1], (rn_range s cj 2) as [c0 c1].
    apply (nodup_flat _ (fun R : Z * Z * Z => fst (fst R))); [apply NoDup_pyrange| |].
    - intros a _. apply (nodup_flat _ (fun R : Z * Z * Z => snd (fst R))); [apply NoDup_pyrange| |].
      + intros b _. apply FinFun.Injective_map_NoDup; [intros x y H; congruence|apply NoDup_pyrange].
      + intros b R HR. apply in_map_iff in HR. destruct HR as (c & <- & _). reflexivity.
    - intros a R HR. apply in_flat_map in HR. destruct HR as (b & _ & HR). apply in_map_iff in HR. destruct HR as (c & <- & _). reflexivity.
  Qed.
  Lemma list_zrange {A} (l : list A) (d : A) : l = map (fun i => nth (Z.to_nat i) l d) (zrange (List.length l)).
  Proof.
    unfold zrange. rewrite map_map. rewrite (map_ext _ (fun i => nth i l d)) by (intros; rewrite Nat2Z.id; reflexivity).
    induction l as [|a l IH]; [reflexivity|]. cbn [List.length seq map nth]. f_equal. rewrite <- seq_shift, map_map. exact IH.
  Qed.
  Lemma corner_b w : view_dims view = Ok w -> exists v, forall a b b0, corner w lat org a b = step_of (corner w lat org a b0) v (b - b0).
  Proof.
    intros Hw. exists (proj w (vmat (vZ (restore w 0 1)) lat)). intros a b b0. apply view_cases in Hw.
    unfold corner, step_of. destruct lat as [[[[a1 a2] a3] [[e1 e2] e3]] [[c1 c2] c3]], org as [[o1 o2] o3].
    unfold Z.sub. rewrite (sZ_add T TL), (sZ_opp T TL).
    destruct Hw as [[_ ->]|[[_ ->]|[[_ ->]|[[_ ->]|[[_ ->]|[_ ->]]]]]]; cbn; rewrite !(sZ_0 T TL), !(sZ_1 T TL); f_equal; ring.
  Qed.
  Lemma corner_a w : view_dims view = Ok w -> exists v, forall a b a0, corner w lat org a b = step_of (corner w lat org a0 b) v (a - a0).
  Proof.
    intros Hw. exists (proj w (vmat (vZ (restore w 1 0)) lat)). intros a b a0. apply view_cases in Hw.
    unfold corner, step_of. destruct lat as [[[[a1 a2] a3] [[e1 e2] e3]] [[c1 c2] c3]], org as [[o1 o2] o3].
    unfold Z.sub. rewrite (sZ_add T TL), (sZ_opp T TL).
    destruct Hw as [[_ ->]|[[_ ->]|[[_ ->]|[[_ ->]|[[_ ->]|[_ ->]]]]]]; cbn; rewrite !(sZ_0 T TL), !(sZ_1 T TL); f_equal; ring.
  Qed.

  Theorem picture o : exists cs hops shown,
    plot_cell big lat org s view o = Ok cs /\
    dots cs = (if o_orbitals o then flat_map (fun R => map (fun i => look (site lat org (tau i) R)) (zrange (Z.to_nat (num_orb (c_pc s))))) shown else []) /\
    NoDup shown /\
    (o_conj o = true -> In (0, 0, 0) shown /\ forall R i j, amp R i j <> None -> In R shown) /\
    arrows cs = (if o_arrows o then hops else []) ++ lattice o /\
    lines cs = (if o_arrows o then [] else hops) /\
    hops = map hop_seen (flat_map (term_keys big (o_conj o)) (c_hop s)) /\
    (o_cells o = true -> forall R, In R shown -> let '(x, y) := inplane view R in
       forall p q, In (p, q) [((x, y), (x + 1, y)); ((x, y + 1), (x + 1, y + 1)); ((x, y), (x, y + 1)); ((x + 1, y), (x + 1, y + 1))] ->
       exists b, In b (borders cs) /\
         part_of b (look (site lat org (s0, s0, s0) (flat view (fst p) (snd p)))) (look (site lat org (s0, s0, s0) (flat view (fst q) (snd q))))).
  Proof.
    destruct (view_total view look Hl) as (w & Ew & Hp). unfold plot_cell. rewrite Ew. cbn [bind].
    pose proof (synced_range conj SL zero os s Hs) as Hr. pose proof (synced_stores conj SL zero os s Hs) as Hst.
    pose proof (len_pos conj zero os s Hs) as Hlen.
    set (hops := map hop_seen (flat_map (term_keys big (o_conj o)) (c_hop s))).
    assert (Hh : exists hc, (if (num_hop (hop (c_pc s)) =? 0)%nat then Ok []
        else bind (cell_terms lat s) (plot_hops big w (cell_pos lat org s) (cell_pos lat org s) (o_conj o) (o_arrows o))) = Ok hc /\
        dots hc = [] /\ borders hc = [] /\ arrows hc = (if o_arrows o then hops else []) /\ lines hc = (if o_arrows o then [] else hops)).
    { destruct (num_hop (hop (c_pc s)) =? 0)%nat eqn:E0.
      - apply Nat.eqb_eq in E0. exists []. unfold hops. rewrite (no_hop E0). repeat split; destruct (o_arrows o); reflexivity.
      - rewrite (cell_terms_ok lat s Hr). cbn [bind]. rewrite (hops_ok TL big lat org s Hr). eexists. split; [reflexivity|]. cbn zeta.
        assert (Eh : map (fun q : vec T * vec T => (proj w (fst q), proj w (snd q))) (map (key_arrow lat org (tau0 s)) (flat_map (term_keys big (o_conj o)) (c_hop s))) = hops).
        { unfold hops. rewrite map_map. apply map_ext_in. intros [R [i j]] Hin. apply In_term_keys in Hin. destruct Hin as (e & _ & Hin).
          assert (Hij : 0 <= i < num_orb (c_pc s) /\ 0 <= j < num_orb (c_pc s)).
          { rewrite Forall_forall in Hr. rewrite Hlen in Hr. destruct Hin as [Hin|[_ Hin]]; destruct (Hr _ Hin); split; assumption. }
          unfold hop_seen. cbn [key_arrow fst snd]. rewrite !Hp, !tau_at by apply Hij. reflexivity. }
        destruct (o_arrows o).
        + pose proof (arrow_only w (map (key_arrow lat org (tau0 s)) (flat_map (term_keys big (o_conj o)) (c_hop s)))) as (H1 & H2 & H3).
          split; [exact H1|]. split; [exact H3|]. split; [|exact H2]. rewrite (arrows_arrow TL). exact Eh.
        + split; [reflexivity|]. split; [reflexivity|]. split; [reflexivity|]. unfold lines. cbn [flat_map]. rewrite app_nil_r. exact Eh. }
    destruct Hh as (hc & Ehc & D1 & D2 & D3 & D4). rewrite Ehc. cbn [bind].
    set (shown := cells_shown s (o_conj o)).
    set (dc := if _ && _ then _ else _).
    assert (Hd : dots dc = (if o_orbitals o then flat_map (fun R => map (fun i => look (site lat org (tau i) R)) (zrange (Z.to_nat (num_orb (c_pc s))))) shown else []) /\
                 arrows dc = [] /\ lines dc = [] /\ borders dc = []).
    { unfold dc. destruct (o_orbitals o); [|rewrite andb_false_r; repeat split]. rewrite andb_true_r.
      destruct (num_orb (c_pc s) =? 0) eqn:E0; cbn [negb].
      - apply Z.eqb_eq in E0. rewrite E0. cbn [Z.to_nat zrange seq map]. repeat split. unfold dots. cbn [flat_map]. induction shown; [reflexivity|assumption].
      - destruct (scatter_only (fun R => map (fun p => proj w (vadd p (vmat (vZ R) lat))) (cell_pos lat org s)) shown) as (H1 & H2).
        cbn zeta in H1, H2. split; [|exact H2]. rewrite H1. apply flat_map_ext. intros R. unfold cell_pos. rewrite map_map.
        replace (Z.to_nat (num_orb (c_pc s))) with (List.length (map fst (c_orb s))) by lia.
        rewrite <- (map_map fst (fun t => proj w (vadd (vadd (vmat t lat) org) (vmat (vZ R) lat)))).
        etransitivity; [exact (f_equal (map _) (list_zrange (map fst (c_orb s)) (s0, s0, s0)))|]. rewrite map_map. apply map_ext_in. intros i Hi. apply In_zrange in Hi.
        rewrite Hp, (site_shift TL). rewrite <- (tau_at i) by lia. reflexivity. }
    destruct Hd as (Hd1 & Hd2 & Hd3 & Hd4).
    set (gc := if o_cells o then _ else _).
    assert (Hg : dots gc = [] /\ arrows gc = lattice o /\ lines gc = []).
    { unfold gc. destruct (o_cells o); [|repeat split]. destruct (grid_axes w) as [x y], (rn_range s (o_conj o) x), (rn_range s (o_conj o) y).
      split; [reflexivity|]. split; [|reflexivity]. unfold plot_lat_vec, arrows. cbn [map flat_map app fst snd].
      rewrite !(padd_psub TL), !(corner_site w _ _ Ew Hp), !Hp. reflexivity. }
    destruct Hg as (Hg1 & Hg2 & Hg3).
    exists (dc ++ hc ++ gc), hops, shown. split; [reflexivity|].
    rewrite !dots_app, !arrows_app, !lines_app, D1, D3, D4, Hd1, Hd2, Hd3, Hg1, Hg2, Hg3, !app_nil_r. cbn [app].
    split; [reflexivity|]. split; [apply shown_nodup|]. split; [|split; [reflexivity|]; split; [reflexivity|]; split; [reflexivity|]].
    - intros Hc. unfold shown. rewrite Hc. split.
      + apply shown_spec. intros d Hd. unfold rn_range. match goal with |- let '(_, _) := col_range true ?col in _ => pose proof (col_conj col 0 (or_intror eq_refl)) as Hz end.
        destruct (col_range true _). cbn [ax]. destruct (d =? 0), (d =? 1); lia.
      + intros R i j Ha. destruct (amp R i j) as [e|] eqn:Ee; [|congruence]. apply (proj2 Hst) in Ee. apply shown_spec. intros d Hd. unfold rn_range.
        match goal with |- let '(_, _) := col_range true ?col in _ => pose proof (col_conj col (ax d R)) as Hz; pose proof (col_conj col (- ax d R)) as Hz' end.
        destruct (col_range true _). destruct Ee as [Hin|(e' & Hin & _)].
        * apply (in_map (fun t : rn3 * pair2 * E => let '((a, b, c), _, _) := t in if d =? 0 then a else if d =? 1 then b else c)) in Hin.
          destruct R as [[a b] c]. cbn [ax] in *. specialize (Hz (or_introl Hin)). lia.
        * apply (in_map (fun t : rn3 * pair2 * E => let '((a, b, c), _, _) := t in if d =? 0 then a else if d =? 1 then b else c)) in Hin.
          destruct R as [[a b] c]. cbn [opp3] in Hin. cbn [ax] in *.
          replace (if d =? 0 then - a else if d =? 1 then - b else - c) with (- (if d =? 0 then a else if d =? 1 then b else c)) in Hin by (destruct (d =? 0), (d =? 1); reflexivity).
          specialize (Hz' (or_introl Hin)). lia.
    - intros Hc R HR. destruct (inplane view R) as [x y] eqn:Exy. intros p q Hpq.
      rewrite !borders_app, D2, Hd4. cbn [app]. unfold gc. rewrite Hc. 
      destruct (rn_range s (o_conj o) (fst (grid_axes w))) as [x0 x1] eqn:Ex, (rn_range s (o_conj o) (snd (grid_axes w))) as [y0 y1] eqn:Ey.
      assert (Hxy : x0 <= x <= x1 /\ y0 <= y <= y1).
      { pose proof (proj1 (shown_spec (o_conj o) R) HR) as HR'.
        apply view_cases in Ew. destruct R as [[a b] c].
        destruct Ew as [[-> ->]|[[-> ->]|[[-> ->]|[[-> ->]|[[-> ->]|[-> ->]]]]]]; cbn in Exy, Ex, Ey; injection Exy as <- <-;
          pose proof (HR' 0 ltac:(lia)) as H0; pose proof (HR' 1 ltac:(lia)) as H1; pose proof (HR' 2 ltac:(lia)) as H2;
          rewrite ?Ex, ?Ey in *; cbn [ax Z.eqb Pos.eqb] in *; split; assumption. }
      destruct (grid_axes w) as [gx gy]. cbn [fst snd] in Ex, Ey. rewrite Ex, Ey.
      unfold borders. cbn [flat_map]. unfold add_grid.
      assert (Hv : forall a b, x0 <= a <= x1 + 1 -> y0 <= b < y1 + 1 -> exists bd, In bd (add_grid w lat org x0 (x1 + 1) y0 (y1 + 1)) /\ part_of bd (corner w lat org a b) (corner w lat org a (b + 1))).
      { intros a b Ha Hb'. exists (corner w lat org a y0, corner w lat org a (y1 + 1)). split.
        - unfold add_grid. apply in_app_iff. left. apply in_map_iff. exists a. split; [reflexivity|]. apply In_pyrange. lia.
        - destruct (corner_b w Ew) as [v Hv]. exists v, (y1 + 1 - y0), (b - y0). cbn [fst snd]. split; [lia|]. rewrite <- !Hv. replace (b - y0 + 1) with (b + 1 - y0) by ring. rewrite <- Hv. auto. }
      assert (Hhz : forall a b, x0 <= a < x1 + 1 -> y0 <= b <= y1 + 1 -> exists bd, In bd (add_grid w lat org x0 (x1 + 1) y0 (y1 + 1)) /\ part_of bd (corner w lat org a b) (corner w lat org (a + 1) b)).
      { intros a b Ha Hb'. exists (corner w lat org x0 b, corner w lat org (x1 + 1) b). split.
        - unfold add_grid. apply in_app_iff. right. apply in_map_iff. exists b. split; [reflexivity|]. apply In_pyrange. lia.
        - destruct (corner_a w Ew) as [v Hva]. exists v, (x1 + 1 - x0), (a - x0). cbn [fst snd]. split; [lia|]. rewrite <- !Hva. replace (a - x0 + 1) with (a + 1 - x0) by ring. rewrite <- Hva. auto. }
      assert (Hfin : exists bd, In bd (add_grid w lat org x0 (x1 + 1) y0 (y1 + 1)) /\ part_of bd (corner w lat org (fst p) (snd p)) (corner w lat org (fst q) (snd q))).
      { destruct Hpq as [H|[H|[H|[H|[]]]]]; injection H as <- <-; cbn [fst snd]; [apply Hhz|apply Hhz|apply Hv|apply Hv]; lia. }
      destruct Hfin as (bd & I1 & I2). exists bd. split; [apply in_app_iff; left; exact I1|]. rewrite <- !(corner_site w _ _ Ew Hp). exact I2.
  Qed.
End Cell.

Lemma keys_split {E} (big : E -> bool) (l : list (rn3 * pair2 * E)) :
  Permutation (flat_map (term_keys big true) l) (flat_map (term_keys big false) l ++ map reverse (flat_map (term_keys big false) l)).
Proof.
  induction l as [|[[[[a b] c] [i j]] e] l IH]; [constructor|]. cbn [flat_map term_keys]. destruct (big e); [|exact IH].
  cbn [app map reverse opp3]. constructor. etransitivity; [apply perm_skip, IH|]. apply Permutation_middle.
Qed.

(** The picture of a cell: orbitals of the cells shown, hoppings as arrows or
    lines, lattice vectors and borders.  [look] is the projection of the view. *)
Theorem C86_cell :
  forall (E T W L : Type) (SE : Scalar E) (ST : Scalar T) (conj : E -> E) (zero : T), ScalarLaws T -> StarLaws conj ->
  forall (big : E -> bool), (forall e, big (conj e) = big e) ->
  forall (lat : mat T) (org : vec T) (os : list (op E T W L)) (s : cached E T W L), synced conj zero os s ->
  forall (view : string) (look : vec T -> T * T), (forall v, eye view v = Some (look v)) ->
  forall tau : Z -> vec T, (forall i o, 0 <= i -> nth_error (orbs (c_pc s)) (Z.to_nat i) = Some o -> tau i = position o) ->
  forall o : options, exists cs hops shown,
    plot_cell big lat org s view o = Ok cs /\
    (** orbitals of every cell shown, once *)
    dots cs = (if o_orbitals o then flat_map (fun R => map (fun i => look (site lat org (tau i) R)) (zrange (Z.to_nat (num_orb (c_pc s))))) shown else []) /\
    NoDup shown /\
    (** hoppings and lattice vectors *)
    arrows cs = (if o_arrows o then hops else []) ++ (if o_cells o then axes_seen lat org look view else []) /\
    lines cs = (if o_arrows o then [] else hops) /\
    (forall keys, NoDup keys ->
       (forall R i j, In (R, (i, j)) keys <-> exists e, a_hop (abs conj (c_pc s)) R i j = Some e /\ big e = true) ->
       if o_conj o then Permutation hops (map (hop_seen lat org look tau) keys)
       else exists half, Permutation hops (map (hop_seen lat org look tau) half) /\ Permutation keys (half ++ map reverse half)) /\
    (** with conjugates every hopping joins orbitals that are shown *)
    (o_conj o = true -> o_orbitals o = true -> forall p q, In (p, q) hops -> In p (dots cs) /\ In q (dots cs)) /\
    (** the four sides of every cell shown are drawn *)
    (o_cells o = true -> forall R, In R shown -> let '(x, y) := inplane view R in
       forall p q, In (p, q) [((x, y), (x + 1, y)); ((x, y + 1), (x + 1, y + 1)); ((x, y), (x, y + 1)); ((x + 1, y), (x + 1, y + 1))] ->
       exists b, In b (borders cs) /\
         part_of b (look (site lat org (s0, s0, s0) (flat view (fst p) (snd p)))) (look (site lat org (s0, s0, s0) (flat view (fst q) (snd q))))).
Proof.
  intros E T W L SE ST conj zero TL SL big Hb lat org os s Hs view look Hl tau Ht o.
  destruct (picture TL conj SL zero big Hb lat org os s Hs view look Hl tau Ht o) as (cs & hops & shown & P1 & P2 & P3 & P4 & P5 & P6 & P7 & P8).
  exists cs, hops, shown. split; [exact P1|]. split; [exact P2|]. split; [exact P3|]. split; [exact P5|]. split; [exact P6|].
  pose proof (synced_stores conj SL zero os s Hs) as Hst. split; [|split; [|exact P8]].
  - intros keys Hk Hin. assert (Hp : Permutation keys (flat_map (term_keys big true) (c_hop s))).
    { apply NoDup_Permutation; [exact Hk|exact (NoDup_keys conj big Hb _ true _ (proj1 Hst))|]. intros [R [i j]]. rewrite Hin. symmetry.
      exact (keys_amp conj big Hb _ _ _ R i j Hst). }
    rewrite P7. destruct (o_conj o).
    + apply Permutation_map, Permutation_sym, Hp.
    + exists (flat_map (term_keys big false) (c_hop s)). split; [reflexivity|]. etransitivity; [exact Hp|]. apply keys_split.
  - intros Hc Ho p q Hpq. destruct (P4 Hc) as [Q1 Q2]. rewrite P7, Hc in Hpq. rewrite P2, Ho. apply in_map_iff in Hpq. destruct Hpq as ([R [i j]] & Heq & Hin).
    unfold hop_seen in Heq. injection Heq as <- <-. pose proof Hin as Hin'. apply (keys_amp conj big Hb _ _ _ R i j Hst) in Hin. destruct Hin as (e & He & _).
    assert (Hij : 0 <= i < num_orb (c_pc s) /\ 0 <= j < num_orb (c_pc s)).
    { apply In_term_keys in Hin'. destruct Hin' as (e' & _ & Hin). pose proof (synced_range conj SL zero os s Hs) as Hr.
      rewrite (len_pos conj zero os s Hs), Forall_forall in Hr. destruct Hin as [Hin|[_ Hin]]; destruct (Hr _ Hin); split; assumption. }
    split; apply in_flat_map.
    + exists (0, 0, 0). split; [exact Q1|]. apply in_map_iff. exists i. split; [reflexivity|]. apply In_zrange. lia.
    + exists R. split; [apply (Q2 R i j); congruence|]. apply in_map_iff. exists j. split; [reflexivity|]. apply In_zrange. lia.
Qed.
Print Assumptions C86_cell.

(** Other views are refused. *)
Theorem C86_illegal :
  forall (E T W L : Type) (ST : Scalar T) (conj : E -> E) (big : E -> bool) (lat : mat T) (org : vec T) (s : cached E T W L) (sc : sc E T) (view : string) (o : options),
  (forall v, @eye T view v = None) -> plot_cell big lat org s view o = Err ValueError /\ plot_super big conj sc view o = Err ValueError.
Proof.
  intros E T W L ST conj big lat org s sc view o H. unfold plot_cell, plot_super. rewrite (eye_illegal view (s0, s0, s0) (H _)). split; reflexivity.
Qed.
Print Assumptions C86_illegal.

(** Looking from the other side mirrors the picture. *)
Section Mirror.
  Context {E T W L : Type} {ST : Scalar T} (big : E -> bool) (lat : mat T) (org : vec T) (x y z : Z).
  Notation w := (x, y, z).
  Notation w' := (y, x, z).
  Lemma arrow_mirror (a b : vec T) : arrow w' a b = mirror (arrow w a b).
  Proof. reflexivity. Qed.
  Lemma hops_mirror pos posk cj ar terms : plot_hops big w' pos posk cj ar terms = bind (plot_hops big w pos posk cj ar terms) (fun cs => Ok (map mirror cs)).
  Proof.
    unfold plot_hops. destruct (mapM _ terms) as [ends|e]; [|reflexivity]. cbn [bind]. destruct ar; cbn [bind map mirror]; do 2 f_equal; rewrite map_map; reflexivity.
  Qed.
  Lemma grid_mirror a b c d : Grid (add_grid w' lat org a b c d) = mirror (Grid (add_grid w lat org a b c d)).
  Proof. cbn [mirror]. f_equal. unfold add_grid. rewrite map_app, !map_map. reflexivity. Qed.
  Lemma lat_mirror : plot_lat_vec w' lat org = map mirror (plot_lat_vec w lat org).
  Proof. reflexivity. Qed.
End Mirror.
Theorem C86_mirror :
  forall (E T W L : Type) (ST : Scalar T) (conj : E -> E) (big : E -> bool) (lat : mat T) (org : vec T) (s : cached E T W L) (sc : sc E T) (o : options) (v v' : string),
  In (v, v') [("ab", "ba"); ("bc", "cb"); ("ca", "ac")]%string ->
  plot_cell big lat org s v' o = bind (plot_cell big lat org s v o) (fun cs => Ok (map mirror cs)) /\
  plot_super big conj sc v' o = bind (plot_super big conj sc v o) (fun cs => Ok (map mirror cs)).
Proof.
  intros E T W L ST conj big lat org s sc o v v' Hv.
  assert (Hw : exists x y z, view_dims v = Ok (x, y, z) /\ view_dims v' = Ok (y, x, z)).
  { destruct Hv as [H|[H|[H|[]]]]; injection H as <- <-; do 3 eexists; split; reflexivity. }
  destruct Hw as (x & y & z & E1 & E2). unfold plot_cell, plot_super. rewrite E1, E2. cbn [bind]. split.
  - assert (Hh : (if (num_hop (hop (c_pc s)) =? 0)%nat then Ok [] else bind (cell_terms lat s) (plot_hops big (y, x, z) (cell_pos lat org s) (cell_pos lat org s) (o_conj o) (o_arrows o))) =
      bind (if (num_hop (hop (c_pc s)) =? 0)%nat then Ok [] else bind (cell_terms lat s) (plot_hops big (x, y, z) (cell_pos lat org s) (cell_pos lat org s) (o_conj o) (o_arrows o))) (fun cs => Ok (map mirror cs))).
    { destruct (_ =? 0)%nat; [reflexivity|]. destruct (cell_terms lat s) as [t|]; [|reflexivity]. apply hops_mirror. }
    rewrite Hh. clear Hh. match goal with |- bind (bind ?u _) _ = bind (bind ?u _) _ => destruct u as [hc|]; [|reflexivity] end. cbn [bind]. f_equal. rewrite !map_app. f_equal; [|f_equal].
    + destruct (_ && _); [|reflexivity]. rewrite map_map. apply map_ext. intros R. cbn [mirror]. f_equal. rewrite map_map. reflexivity.
    + destruct (o_cells o); [|reflexivity]. cbn [grid_axes]. destruct (if z =? 2 then _ else _) as [gx gy].
      destruct (rn_range s (o_conj o) gx), (rn_range s (o_conj o) gy). cbn [map]. rewrite grid_mirror, lat_mirror. reflexivity.
  - destruct (get_orb_pos sc) as [pos|]; [|reflexivity]. cbn [bind]. destruct (get_hop conj sc) as [[rows dt]|]; [|reflexivity]. cbn [bind fst snd].
    assert (Hh : plot_rows big (y, x, z) pos pos (o_conj o) (o_arrows o) rows dt = bind (plot_rows big (x, y, z) pos pos (o_conj o) (o_arrows o) rows dt) (fun cs => Ok (map mirror cs))).
    { unfold plot_rows. destruct dt; [apply hops_mirror|]. destruct (existsb _ _); [reflexivity|apply hops_mirror]. }
    rewrite Hh. destruct (plot_rows big (x, y, z) pos pos (o_conj o) (o_arrows o) rows dt) as [hc|]; [|reflexivity]. cbn [bind]. f_equal. rewrite !map_app. f_equal; [|f_equal].
    + destruct (o_orbitals o); [|reflexivity]. cbn [map mirror]. rewrite map_map. reflexivity.
    + destruct (o_cells o); [|reflexivity]. cbn [grid_axes]. destruct (if z =? 2 then _ else _) as [gx gy]. cbn [map]. rewrite grid_mirror, lat_mirror. reflexivity.
Qed.
Print Assumptions C86_mirror.

(** Supercells whose hoppings were not edited: the dots are the orbitals, each
    arrow is a hopping of the crystal from an orbital of the supercell. *)
Definition add3 (a b : Z * Z * Z) : Z * Z * Z := let '(a1, a2, a3) := a in let '(b1, b2, b3) := b in (a1 + b1, a2 + b2, a3 + b3).
Section Sites.
Context {T : Type} {ST : Scalar T} (TL : ScalarLaws T).
Add Ring Tr10 : (s_ring T TL).
Lemma site_plus lat org (ti tj : vec T) c R : vadd (site lat org ti c) (vmat (vsub (vadd tj (vZ R)) ti) lat) = site lat org tj (add3 c R).
Proof.
  destruct ti as [[x y] z], tj as [[x' y'] z'], R as [[r1 r2] r3], c as [[q1 q2] q3], lat as [[[[a1 a2] a3] [[b1 b2] b3]] [[c1 c2] c3]], org as [[o1 o2] o3].
  unfold site. cbn [vadd vsub vZ vmat add3]. rewrite !(sZ_add T TL). repeat (f_equal; try ring).
Qed.
Lemma site_minus lat org (ti tj : vec T) c R : vsub (site lat org tj c) (vmat (vsub (vadd tj (vZ R)) ti) lat) = site lat org ti (add3 c (opp3 R)).
Proof.
  destruct ti as [[x y] z], tj as [[x' y'] z'], R as [[r1 r2] r3], c as [[q1 q2] q3], lat as [[[[a1 a2] a3] [[b1 b2] b3]] [[c1 c2] c3]], org as [[o1 o2] o3].
  unfold site. cbn [vadd vsub vZ vmat add3 opp3]. rewrite !(sZ_add T TL), !(sZ_opp T TL). repeat (f_equal; try ring).
Qed.
End Sites.
Theorem C86_super :
  forall (E T X W L : Type) (ST : Scalar T) (conj : E -> E) (zero : X) (frac_of : X * X * X -> vec T),
  (forall e, conj (conj e) = e) -> ScalarLaws T ->
  forall (big : E -> bool), (forall e, big (conj e) = big e) ->
  forall (os : list (op E X W L)) lat org dim pbc vacs (s : sc E T) (sos : list (scop E)),
  builds conj zero frac_of os lat org dim pbc vacs None s ->
  Forall (fun o => ~ edits_hoppings o) sos ->
  let p := fst (run conj zero pc_empty os) in
  let s' := sc_run conj s sos in
  let sites := o_orb_id_pc (s_os s') in
  let taus := map (fun q => frac_of (position q)) (orbs p) in
  forall (view : string) (look : vec T -> T * T), (forall v, eye view v = Some (look v)) ->
  forall o : options, exists cs hops pos rows,
    plot_super big conj s' view o = Ok cs /\ get_hop conj s' = Ok (rows, Int64) /\
    positions lat org taus sites pos /\
    dots cs = (if o_orbitals o then map look pos else []) /\
    arrows cs = (if o_arrows o then hops else []) ++ (if o_cells o then axes_seen lat org look view else []) /\
    lines cs = (if o_arrows o then [] else hops) /\
    List.length hops = ((if o_conj o then 2 else 1) * List.length (filter (fun r => big (r_v r)) rows))%nat /\
    (forall a b, In (a, b) hops -> exists R i j cell e ti tj,
       a_hop (abs conj p) R i j = Some e /\ big e = true /\ In (cell, i) sites /\
       nth_error taus (Z.to_nat i) = Some ti /\ nth_error taus (Z.to_nat j) = Some tj /\
       a = look (site lat org ti cell) /\ b = look (site lat org tj (add3 cell R))).
Proof.
  intros E T X W L ST conj zero frac_of Hcc TL big Hb os lat org dim pbc vacs s sos Hbd Hno p s' sites taus view look Hl o.
  destruct (C11_images E T X W L ST conj zero frac_of Hcc os lat org dim pbc vacs None s sos Hbd Hno) as (d & pb & tab & pos & rows & P1 & P2 & P3 & P4 & P5 & P6 & P7 & P8).
  fold p s' sites taus in P3, P4, P5, P6, P7, P8. specialize (P6 eq_refl).
  pose proof (C14_displacement E T X W L ST conj zero frac_of Hcc TL os lat org dim pbc vacs s sos rows Int64 Hbd Hno P7) as P9.
  fold p s' sites taus in P9.
  destruct (view_total view look Hl) as (w & Ew & Hp). unfold plot_super. rewrite Ew, P5, P7. cbn [bind fst snd plot_rows].
  set (good := fun a b : vec T => exists R i j cell e ti tj,
       a_hop (abs conj p) R i j = Some e /\ big e = true /\ In (cell, i) sites /\
       nth_error taus (Z.to_nat i) = Some ti /\ nth_error taus (Z.to_nat j) = Some tj /\
       a = site lat org ti cell /\ b = site lat org tj (add3 cell R)).
  assert (Hpos : forall k a b c i, nth_error sites k = Some (a, b, c, i) -> exists ti, nth_error taus (Z.to_nat i) = Some ti /\ nth_error pos k = Some (site lat org ti (a, b, c))).
  { intros k a b c i Hk. clear -P6 Hk. revert k Hk. induction P6 as [|[[[a' b'] c'] i'] q ss ps (t & Ht & Hq) _ IH]; intros [|k] Hk; try discriminate.
    - injection Hk as -> -> -> ->. exists t. split; [exact Ht|]. cbn [nth_error]. rewrite Hq. reflexivity.
    - exact (IH k Hk). }
  assert (Hnn : forall r, In r rows -> 0 <= r_i r /\ 0 <= r_j r).
  { destruct P8 as (prov & _ & _ & HF). intros r Hr. clear -HF Hr. induction HF as [|x r' l l' (? & ? & ? & ? & ? & _ & (Hi & _ & (? & ? & ? & Hj & _))) _ IH]; [destruct Hr|].
    destruct Hr as [->|Hr]; [lia|exact (IH Hr)]. }
  destruct (mapM_exists (hop_ends big pos pos (o_conj o)) (fun t en => forall a b, In (a, b) en -> good a b) (map row_term rows)) as (ends & Em & Hen).
  { intros t Hin. apply in_map_iff in Hin. destruct Hin as (r & <- & Hr). destruct (Hnn r Hr) as [Hi Hj].
    destruct (P9 r Hr) as (R & i & j & a & b & c & a' & b' & c' & ti & tj & A1 & A2 & A3 & A4 & A5 & A6).
    destruct (Hpos _ _ _ _ _ A2) as (ti' & B1 & B2). destruct (Hpos _ _ _ _ _ A3) as (tj' & B3 & B4).
    assert (Hti : Some ti' = Some ti) by (rewrite <- B1; exact A4). assert (Htj : Some tj' = Some tj) by (rewrite <- B3; exact A5). injection Hti as ->. injection Htj as ->.
    unfold row_term, hop_ends. destruct (big (r_v r)) eqn:Eb; [|exists []; split; [reflexivity|intros ? ? []]].
    unfold aread. replace (r_i r <? 0) with false by lia. replace (r_j r <? 0) with false by lia. rewrite B2, B4. cbn [bind].
    assert (G1 : good (site lat org ti (a, b, c)) (vadd (site lat org ti (a, b, c)) (r_dr r))).
    { exists R, i, j, (a, b, c), (r_v r), ti, tj. repeat (split; [first [assumption|reflexivity|exact (nth_error_In _ _ A2)]|]). rewrite A6. apply site_plus, TL. }
    assert (G2 : good (site lat org tj (a', b', c')) (vsub (site lat org tj (a', b', c')) (r_dr r))).
    { exists (opp3 R), j, i, (a', b', c'), (conj (r_v r)), tj, ti.
      assert (Hrev : a_hop (abs conj p) (opp3 R) j i = Some (conj (r_v r))).
      { apply (proj2 P3). apply (proj2 P3) in A1. rewrite opp3_opp3. destruct A1 as [H|(e' & H & ->)]; [right; eauto|]. left. rewrite Hcc. exact H. }
      split; [exact Hrev|]. split; [rewrite Hb; exact Eb|]. repeat (split; [first [assumption|reflexivity|exact (nth_error_In _ _ A3)]|]). rewrite A6. apply site_minus, TL. }
    destruct (o_conj o); eexists; (split; [reflexivity|]); intros u v Huv.
    - destruct Huv as [H|[H|[]]]; injection H as <- <-; assumption.
    - destruct Huv as [H|[]]; injection H as <- <-; assumption. }
  unfold plot_hops. rewrite Em. cbn [bind].
  set (hops := map (fun q : vec T * vec T => (proj w (fst q), proj w (snd q))) (concat ends)).
  set (hc := if o_arrows o then map (fun q => arrow w (fst q) (snd q)) (concat ends) else [Lines hops]).
  assert (Hbind : forall k : list (cmd T) -> res (list (cmd T)), bind (if o_arrows o then Ok (map (fun q => arrow w (fst q) (snd q)) (concat ends)) else Ok [Lines hops]) k = k hc) by (intros k; unfold hc; destruct (o_arrows o); reflexivity).
  rewrite Hbind. clear Hbind.
  assert (Hhc : dots hc = [] /\ arrows hc = (if o_arrows o then hops else []) /\ lines hc = (if o_arrows o then [] else hops)).
  { unfold hc. destruct (o_arrows o).
    - destruct (arrow_only w (concat ends)) as (H1 & H2 & _). split; [exact H1|]. split; [apply (arrows_arrow TL)|exact H2].
    - split; [reflexivity|]. split; [reflexivity|]. unfold lines. cbn [flat_map]. apply app_nil_r. }
  destruct Hhc as (C1 & C2 & C3).
  set (gc := if o_cells o then _ else _).
  assert (Hg : dots gc = [] /\ arrows gc = (if o_cells o then axes_seen lat org look view else []) /\ lines gc = []).
  { destruct (builds_wf conj zero frac_of Hcc os lat org dim pbc vacs None s Hbd) as (_ & _ & _ & _ & _ & _ & _ & F1 & F2 & _).
    destruct (run_same conj sos s) as (_ & _ & _ & _ & S5 & S6 & S7 & _). fold s' in S5, S6, S7.
    assert (El : s_lat s' = lat) by (rewrite <- F1; first [exact S5|exact S6|exact S7|symmetry; first [exact S5|exact S6|exact S7]]). assert (Eo : s_org s' = org) by (rewrite <- F2; first [exact S5|exact S6|exact S7|symmetry; first [exact S5|exact S6|exact S7]]).
    unfold gc. rewrite El, Eo. destruct (o_cells o); [|repeat split]. destruct (grid_axes w) as [gx gy].
    split; [reflexivity|]. split; [|reflexivity]. unfold plot_lat_vec, arrows. cbn [map flat_map app fst snd].
    rewrite !(padd_psub TL), !(corner_site TL lat org view look Hl w _ _ Ew Hp), !Hp. reflexivity. }
  destruct Hg as (Hg1 & Hg2 & Hg3).
  exists ((if o_orbitals o then [Scatter (map (proj w) pos)] else []) ++ hc ++ gc), hops, pos, rows. split; [reflexivity|]. split; [reflexivity|]. split; [exact P6|].
  rewrite !dots_app, !arrows_app, !lines_app, C1, C2, C3, Hg1, Hg2, Hg3, !app_nil_r.
  assert (Ed : map (proj w) pos = map look pos) by (apply map_ext; exact Hp).
  split; [destruct (o_orbitals o); [|reflexivity]; unfold dots; cbn [flat_map]; rewrite app_nil_r; exact Ed|].
  split; [destruct (o_orbitals o); reflexivity|]. split; [destruct (o_orbitals o); reflexivity|]. split.
  - unfold hops. rewrite map_length. clear -Em. revert ends Em. induction rows as [|r rows IH]; intros ends Em; cbn [map mapM] in Em.
    + assert (ends = []) by congruence. subst ends. destruct (o_conj o); reflexivity.
    + destruct (hop_ends big pos pos (o_conj o) (row_term r)) as [e1|] eqn:E1; [|discriminate]. cbn [bind] in Em.
      destruct (mapM _ _) as [es|]; [|discriminate]. cbn [bind] in Em. assert (ends = e1 :: es) by congruence. subst ends.
      specialize (IH es eq_refl). cbn [concat filter]. rewrite app_length, IH. unfold hop_ends, row_term in E1. destruct (big (r_v r)).
      * destruct (aread pos (r_i r)); [|discriminate]. cbn [bind] in E1. destruct (o_conj o); [destruct (aread pos (r_j r)); [|discriminate]; cbn [bind] in E1|];
          match type of E1 with Ok ?x = Ok _ => assert (e1 = x) by congruence; subst e1 end; cbn [List.length]; lia.
      * assert (e1 = []) by congruence. subst e1. reflexivity.
  - intros a b Hab. unfold hops in Hab. apply in_map_iff in Hab. destruct Hab as ([u v] & Huv & Hin). cbn [fst snd] in Huv. injection Huv as <- <-.
    apply in_concat in Hin. destruct Hin as (en & Hin1 & Hin2). 
    assert (Hgd : good u v). { clear -Hen Hin1 Hin2. induction Hen as [|x y l l' H _ IH]; [destruct Hin1|]. destruct Hin1 as [->|Hin1]; [exact (H _ _ Hin2)|exact (IH Hin1)]. }
    destruct Hgd as (R & i & j & cell & e & ti & tj & A1 & A2 & A3 & A4 & A5 & -> & ->). exists R, i, j, cell, e, ti, tj. rewrite !Hp. auto 10.
Qed.
Print Assumptions C86_super.

(** Findings.  (1) Without conjugates the cells shown are those of the stored
    hoppings only: an arrow may start where no orbital is drawn. *)
Definition zchain : list (op Z Z Z Z) := [OpAddOrb [0; 0] 7 0; OpAddHop [1; 0] 0 0 5].
Definition zcell : cached Z Z Z Z :=
  let p := fst (run (fun e => e) 0 pc_empty zchain) in
  {| c_pc := p; c_horb := 0; c_hhop := 0; c_orb := map (fun o => (position o, energy o)) (orbs p); c_hop := flatten (hop p) |}.
Definition zlat : mat Z := ((3, 0, 0), (0, 4, 0), (0, 0, 5)).
Theorem C86_half_refuted :
  synced (fun e : Z => e) 0 zchain zcell /\
  exists cs, plot_cell (fun _ : Z => true) zlat (0, 0, 0) zcell "ab" {| o_orbitals := true; o_cells := false; o_conj := false; o_arrows := true |} = Ok cs /\
    arrows cs = [((0, 0), (3, 0))] /\ dots cs = [(3, 0)].
Proof. split; [repeat split|]. eexists. split; [vm_compute; reflexivity|]. split; reflexivity. Qed.
Print Assumptions C86_half_refuted.

(** (2) A supercell in which add_hopping only replaced existing terms cannot be
    drawn. *)
Theorem C86_replaced_refuted :
  builds cj 0 id3 hc hc_lat (0, 0, 0) [3; 4] [true; false] (Some [[1; 1; 0; 0]]) None hc_sc /\
  let s' := sc_run cj hc_sc [SAddHop [0; 0] 0 1 (50, 1)] in
  plot_super (fun _ => true) cj s' "ab" {| o_orbitals := true; o_cells := true; o_conj := false; o_arrows := true |} = Err IndexError.
Proof. split; [exact hc_builds|]. vm_compute. reflexivity. Qed.
Print Assumptions C86_replaced_refuted.

(** The chain with conjugates: three cells, both directions. *)
Example C86_example :
  exists cs, plot_cell (fun _ : Z => true) zlat (0, 0, 0) zcell "ba" {| o_orbitals := true; o_cells := true; o_conj := true; o_arrows := true |} = Ok cs /\
    dots cs = [(0, -3); (0, 0); (0, 3)] /\
    arrows cs = [((0, 0), (0, 3)); ((0, 0), (0, -3)); ((0, 0), (4, 0)); ((0, 0), (0, 3))] /\
    List.length (borders cs) = 6%nat /\ In ((0, -3), (0, 6)) (borders cs).
Proof. eexists. split; [vm_compute; reflexivity|]. cbn. intuition. Qed.
