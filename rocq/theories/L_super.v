(** Proofs about supercell hoppings. *)
From Verif Require Import Prelude Vec M_hop M_pc M_index M_super S_index S_super L_base L_hop L_pc L_index.
From Coq Require Import Permutation.

(** ** Loops *)
Lemma mapM_ok {A B} (f : A -> res B) (g : A -> B) l :
  (forall x, In x l -> f x = Ok (g x)) -> mapM f l = Ok (map g l).
Proof.
  induction l as [|a l IH]; intros H; cbn [mapM map]; [reflexivity|].
  rewrite H by (left; reflexivity). cbn [bind]. rewrite IH; [reflexivity|].
  intros x Hx; apply H; right; assumption.
Qed.

Lemma flatM_ok {A B} (f : A -> res (list B)) (g : A -> list B) l :
  (forall x, In x l -> f x = Ok (g x)) -> flatM f l = Ok (flat_map g l).
Proof.
  intros H. unfold flatM. rewrite (mapM_ok f g) by assumption. cbn [bind].
  rewrite flat_map_concat_map. reflexivity.
Qed.

Lemma rd_ok {A} (l : list A) k x : nth_error l k = Some x -> rd l (Z.of_nat k) = Ok x.
Proof.
  intros H. unfold rd. replace (Z.of_nat k <? 0) with false by lia. rewrite Nat2Z.id, H. reflexivity.
Qed.

Lemma rd_inv {A} (l : list A) k x : rd l k = Ok x -> 0 <= k /\ nth_error l (Z.to_nat k) = Some x.
Proof.
  unfold rd. destruct (k <? 0) eqn:H; [discriminate|].
  destruct (nth_error l (Z.to_nat k)) eqn:Hn; [|discriminate]. intros He; injection He as ->.
  split; [lia|reflexivity].
Qed.

Lemma enum_In {A} (l : list A) k x :
  In (k, x) (enum l) <-> 0 <= k /\ nth_error l (Z.to_nat k) = Some x.
Proof.
  unfold enum. split.
  - intros H. apply In_nth_error in H. destruct H as [m Hm].
    assert (Hm' : nth_error (zrange (length l)) m = Some k /\ nth_error l m = Some x).
    { clear - Hm. revert m Hm. generalize (zrange (length l)) as ks. induction l as [|a l IH]; intros ks m Hm.
      - destruct ks; destruct m; discriminate.
      - destruct ks as [|k0 ks]; [destruct m; discriminate|]. destruct m as [|m]; cbn [combine nth_error] in *.
        + injection Hm as -> ->. auto.
        + apply IH; assumption. }
    destruct Hm' as [H1 H2]. unfold zrange in H1. rewrite nth_error_map in H1.
    destruct (nth_error (seq 0 (length l)) m) as [y|] eqn:Hy; [|discriminate].
    cbn [option_map] in H1. injection H1 as <-.
    assert (m < length l)%nat by (apply nth_error_Some; congruence).
    assert (y = m).
    { pose proof (nth_error_nth' (seq 0 (length l)) 0%nat (n := m)) as Hs.
      rewrite seq_length in Hs. specialize (Hs H). rewrite seq_nth in Hs by assumption. rewrite Hs in Hy.
      injection Hy as <-. reflexivity. }
    subst y. split; [lia|]. rewrite Nat2Z.id. assumption.
  - intros [Hk Hn]. apply nth_error_In with (n := Z.to_nat k).
    assert (Hlt : (Z.to_nat k < length l)%nat) by (apply nth_error_Some; congruence).
    assert (Hz : nth_error (zrange (length l)) (Z.to_nat k) = Some k).
    { unfold zrange. rewrite nth_error_map.
      pose proof (nth_error_nth' (seq 0 (length l)) 0%nat (n := Z.to_nat k)) as Hs.
      rewrite seq_length in Hs. specialize (Hs Hlt). rewrite seq_nth in Hs by assumption.
      rewrite Hs. cbn [option_map Nat.add]. f_equal. lia. }
    revert Hz Hn. generalize (zrange (length l)) as ks. generalize (Z.to_nat k) as m. clear.
    induction l as [|a l IH]; intros m ks Hz Hn; [destruct m; discriminate|].
    destruct ks as [|k0 ks]; [destruct m; discriminate|]. destruct m as [|m]; cbn [combine nth_error] in *.
    + congruence.
    + apply IH; assumption.
Qed.

Lemma length_zrange n : length (zrange n) = n.
Proof. unfold zrange. rewrite map_length, seq_length. reflexivity. Qed.

Lemma map_fst_combine {A B} (l : list A) (l' : list B) :
  length l = length l' -> map fst (combine l l') = l.
Proof.
  revert l'. induction l as [|a l IH]; intros [|b l']; cbn; try discriminate; [reflexivity|].
  intros H. f_equal. apply IH. lia.
Qed.
Lemma map_snd_combine {A B} (l : list A) (l' : list B) :
  length l = length l' -> map snd (combine l l') = l'.
Proof.
  revert l'. induction l as [|a l IH]; intros [|b l']; cbn; try discriminate; [reflexivity|].
  intros H. f_equal. apply IH. lia.
Qed.

Lemma enum_snd {A} (l : list A) : map snd (enum l) = l.
Proof. unfold enum. apply map_snd_combine, length_zrange. Qed.
Lemma enum_fst {A} (l : list A) : map fst (enum l) = zrange (length l).
Proof. unfold enum. apply map_fst_combine, length_zrange. Qed.

Lemma NoDup_map_fst {A B} (l : list (A * B)) : NoDup (map fst l) -> NoDup l.
Proof. apply NoDup_map_inv. Qed.

Lemma NoDup_enum {A} (l : list A) : NoDup (enum l).
Proof. apply NoDup_map_fst. rewrite enum_fst. apply NoDup_zrange. Qed.

Lemma NoDup_list_prod {A B} (l : list A) (m : list B) : NoDup l -> NoDup m -> NoDup (list_prod l m).
Proof.
  intros Hl Hm. induction Hl as [|a l Ha Hl IH]; cbn [list_prod]; [constructor|].
  assert (Hd : forall x, In x (map (fun y => (a, y)) m) -> ~ In x (list_prod l m)).
  { intros [x y] Hin Hin2. apply in_map_iff in Hin. destruct Hin as (y' & He & _). injection He as -> _.
    apply in_prod_iff in Hin2. tauto. }
  assert (H1 : NoDup (map (fun y => (a, y)) m)).
  { apply NoDup_map_inj; [|assumption]. intros x y _ _ He. congruence. }
  revert Hd H1. generalize (map (fun y => (a, y)) m) as u. clear - IH.
  induction u as [|x u IHu]; cbn [app]; intros Hd H1; [assumption|].
  inversion H1 as [|? ? Hx Hu]; subst. constructor.
  - intros Hin. apply in_app_or in Hin. destruct Hin as [Hin|Hin]; [contradiction|].
    exact (Hd x (or_introl eq_refl) Hin).
  - apply IHu; [|assumption]. intros y Hy. apply Hd. right; assumption.
Qed.

(** Candidates and rows. *)
Definition optl {A} (o : option A) : list A := match o with Some x => [x] | None => [] end.
Definition isS {A} (o : option A) : bool := match o with Some _ => true | None => false end.

Lemma flat_map_opt {A B} (f : A -> option B) l :
  Forall2 (fun c r => f c = Some r) (filter (fun c => isS (f c)) l) (flat_map (fun c => optl (f c)) l).
Proof.
  induction l as [|a l IH]; cbn [filter flat_map]; [constructor|].
  destruct (f a) as [b|] eqn:Hf; cbn [isS optl app]; [|assumption].
  constructor; assumption.
Qed.

Lemma perm_opt {A B} (f : A -> option B) l m :
  Permutation l m -> Permutation (flat_map (fun c => optl (f c)) l) (flat_map (fun c => optl (f c)) m).
Proof. intros H. apply Permutation_flat_map. assumption. Qed.

Lemma flat_map_filter_isS {A B} (f : A -> option B) l :
  flat_map (fun c => optl (f c)) (filter (fun c => isS (f c)) l) = flat_map (fun c => optl (f c)) l.
Proof.
  induction l as [|a l IH]; cbn [filter flat_map]; [reflexivity|].
  destruct (f a) as [b|] eqn:Hf; cbn [isS optl app flat_map]; [rewrite Hf; cbn [optl app]; f_equal|]; assumption.
Qed.

Lemma flat_map_prod {A B C} (f : A -> B -> list C) l m :
  flat_map (fun x => flat_map (f x) m) l = flat_map (fun p => f (fst p) (snd p)) (list_prod l m).
Proof.
  induction l as [|a l IH]; cbn [flat_map list_prod]; [reflexivity|].
  rewrite flat_map_app, <- IH. f_equal. rewrite flat_map_map. reflexivity.
Qed.

(** ** One direction *)
Definition step1 (n : Z) (p : bool) (a r : Z) : option (Z * Z) :=
  if p then Some ((a + r) mod n, (a + r) / n)
  else if (0 <=? a + r) && (a + r <? n) then Some (a + r, 0) else None.

Lemma step1_spec n p a r a' k : 0 < n ->
  (step1 n p a r = Some (a', k) <-> along n p a r a' k).
Proof.
  intros Hn. unfold step1, along. destruct p.
  - pose proof (Z.div_mod (a + r) n ltac:(lia)) as Hdm. pose proof (Z.mod_pos_bound (a + r) n Hn) as Hb.
    split.
    + intros H. injection H as <- <-. split; [lia|]. split; [assumption|discriminate].
    + intros (H1 & H2 & _).
      assert (a' = (a + r) mod n) by (apply (Z.mod_unique_pos (a + r) n k a'); lia).
      assert (k = (a + r) / n) by (apply (Z.div_unique_pos (a + r) n k a'); lia). congruence.
  - destruct ((0 <=? a + r) && (a + r <? n)) eqn:H.
    + split.
      * intros He. injection He as <- <-. split; [lia|split; [lia|reflexivity]].
      * intros (H1 & H2 & H3). rewrite H3 in H1 by reflexivity. rewrite H3 by reflexivity. f_equal. f_equal. lia.
    + split; [discriminate|]. intros (H1 & H2 & H3). rewrite H3 in H1 by reflexivity. lia.
Qed.

Lemma step1_wrap n p a r : 0 < n ->
  wrap_pbc (a + r) n p = Ok (match step1 n p a r with Some (a', _) => a' | None => -1 end).
Proof.
  intros Hn. destruct p.
  - rewrite wrap_pbc_ok by assumption. reflexivity.
  - rewrite wrap_open_ok. unfold step1. destruct ((0 <=? a + r) && (a + r <? n)); reflexivity.
Qed.

Lemma step1_div n p a r a' k : 0 < n -> step1 n p a r = Some (a', k) -> fast_div (a + r) n = Ok k.
Proof.
  intros Hn H. rewrite fast_div_ok by assumption. unfold step1 in H. destruct p.
  - injection H as _ <-. reflexivity.
  - destruct ((0 <=? a + r) && (a + r <? n)) eqn:Hc; [|discriminate]. injection H as <- <-.
    rewrite Z.div_small by lia. reflexivity.
Qed.

Lemma step1_range n p a r a' k : 0 < n -> step1 n p a r = Some (a', k) -> 0 <= a' < n.
Proof. intros Hn H. apply step1_spec in H; [|assumption]. destruct H as (_ & H & _). exact H. Qed.

Section Super.
  Context {E T : Type} {ST : Scalar T}.
  Notation vec := (vec T).
  Notation mat := (mat T).
  Notation hterm := (hterm E).
  Notation row := (M_super.row E T).

  Definition tgt (dim : rn3) (pbc : bool * bool * bool) (t : id4) (h : hterm) : option (site * rn3) :=
    let '(da, db, dc) := dim in let '(pa, pb, pc) := pbc in
    let '(ia, ib, ic, o) := t in
    let '((ra, rb, rc), (oi, oj), e) := h in
    if o =? oi then
      match step1 da pa ia ra, step1 db pb ib rb, step1 dc pc ic rc with
      | Some (ja, ka), Some (jb, kb), Some (jc, kc) => Some ((ja, jb, jc, oj), (ka, kb, kc))
      | _, _, _ => None
      end
    else None.

  Lemma tgt_spec dim pbc t R i j e s' q : positive dim ->
    (tgt dim pbc t (R, (i, j), e) = Some (s', q) <-> image dim pbc t R i j s' q).
  Proof.
    destruct dim as [[da db] dc], pbc as [[pa pb] pc], t as [[[ia ib] ic] o], R as [[ra rb] rc],
      s' as [[[a b] c] o'], q as [[ka kb] kc].
    intros (Ha & Hb & Hc). unfold tgt, image.
    rewrite <- !step1_spec by assumption.
    destruct (o =? i) eqn:Ho.
    - split.
      + destruct (step1 da pa ia ra) as [[xa ya]|]; [|discriminate].
        destruct (step1 db pb ib rb) as [[xb yb]|]; [|discriminate].
        destruct (step1 dc pc ic rc) as [[xc yc]|]; [|discriminate].
        intros H. injection H as <- <- <- <- <- <- <-. repeat split. lia.
      + intros (_ & -> & -> & -> & ->). reflexivity.
    - split; [discriminate|]. intros (H & _). lia.
  Qed.

  (** The number of a site. *)
  Definition num (o : oset) (t : id4) : Z := vac_index (o_vac_id_sc o) (id_pc2sc (o_dim o) (o_n o) t).

  Definition term_ok (n : Z) (h : hterm) : Prop :=
    let '(_, (i, j), _) := h in 0 <= i < n /\ 0 <= j < n.

  Definition pget (pos : list vec) (d : vec) (k : Z) : vec := nth (Z.to_nat k) pos d.

  Definition dr_at (sclat : mat) (pos : list vec) (i j : Z) (q : rn3) : vec :=
    match nth_error pos (Z.to_nat j), nth_error pos (Z.to_nat i) with
    | Some pj, Some pi => vadd (vsub pj pi) (vmat (vZ q) sclat)
    | _, _ => vmat (vZ q) sclat
    end.

  Lemma dr_of_ok sclat pos i j q :
    0 <= i < Z.of_nat (length pos) -> 0 <= j < Z.of_nat (length pos) ->
    dr_of sclat pos i j q = Ok (dr_at sclat pos i j q).
  Proof.
    intros Hi Hj. unfold dr_of, dr_at, rd.
    replace (j <? 0) with false by lia. replace (i <? 0) with false by lia.
    destruct (nth_error pos (Z.to_nat j)) eqn:Hpj; [|apply nth_error_None in Hpj; lia].
    destruct (nth_error pos (Z.to_nat i)) eqn:Hpi; [|apply nth_error_None in Hpi; lia].
    reflexivity.
  Qed.

  (** The row of a candidate (number of site, site), (number of term, term). *)
  Definition cand := ((Z * id4) * (Z * hterm))%type.
  Definition rowf (o : oset) (pbc : bool * bool * bool) (sclat : mat) (pos : list vec) (c : cand) : option row :=
    let '((k, t), (_, h)) := c in
    match tgt (o_dim o) pbc t h with
    | None => None
    | Some (s', q) => if id4_mem s' (o_vacs o) then None
                      else Some {| r_i := k; r_j := num o s'; r_v := snd h; r_dr := dr_at sclat pos k (num o s') q |}
    end.

  Lemma tgt_in_cell dim pbc t h s' q n :
    positive dim -> term_ok n h -> tgt dim pbc t h = Some (s', q) -> in_cell dim n s'.
  Proof.
    destruct h as [[R [i j]] e]. intros Hp Ht H. apply tgt_spec in H; [|assumption].
    destruct dim as [[da db] dc], pbc as [[pa pb] pc], t as [[[ia ib] ic] o], R as [[ra rb] rc],
      s' as [[[a b] c] o'], q as [[ka kb] kc].
    destruct H as (_ & -> & (_ & H1 & _) & (_ & H2 & _) & (_ & H3 & _)).
    destruct Ht as [_ Ht]. repeat split; lia.
  Qed.

  Lemma num_range o (t : id4) :
    vset_ok o -> positive (o_dim o) -> 0 <= o_n o -> in_cell (o_dim o) (o_n o) t -> ~ In t (o_vacs o) ->
    0 <= num o t < Z.of_nat (length (o_orb_id_pc o)) /\
    nth_error (o_orb_id_pc o) (Z.to_nat (num o t)) = Some t.
  Proof.
    intros Hv Hp Hn Hc Hnv.
    assert (Hin : In t (o_orb_id_pc o)) by (apply In_orb_id; auto).
    apply In_nth_error in Hin. destruct Hin as [k Hk]. pose proof Hk as Hk'.
    apply nth_orb_id in Hk; try assumption. destruct Hk as (_ & _ & Hk). unfold num. rewrite Hk.
    assert (k < length (o_orb_id_pc o))%nat by (apply nth_error_Some; congruence).
    split; [lia|]. rewrite Nat2Z.id. assumption.
  Qed.

  Lemma hop_gen_one_ok o pbc sclat pos k t h hn :
    vset_ok o -> positive (o_dim o) -> 0 <= o_n o -> term_ok (o_n o) h ->
    length pos = length (o_orb_id_pc o) ->
    0 <= k < Z.of_nat (length pos) ->
    hop_gen_one (o_dim o) pbc (o_n o) (o_vac_id_sc o) sclat pos k t h
    = Ok (optl (rowf o pbc sclat pos ((k, t), (hn, h)))).
  Proof.
    intros Hv Hp Hn Ht Hlen Hk.
    pose proof (fun s' q => tgt_in_cell (o_dim o) pbc t h s' q (o_n o) Hp Ht) as Hcell.
    pose proof (vac_index_vacant o) as Hvv. pose proof (vac_sc_increasing o Hv) as Hinc.
    pose proof (num_range o) as Hnum. pose proof (length_vac_sc o) as Hlv.
    unfold hop_gen_one, rowf, tgt, num in *.
    destruct (o_dim o) as [[da db] dc] eqn:Hdim, pbc as [[pa pb] pc], t as [[[ia ib] ic] oo],
      h as [[[[ra rb] rc] [oi oj]] e].
    destruct Hp as (Pa & Pb & Pc).
    destruct (oo =? oi); [|reflexivity].
    rewrite !step1_wrap by assumption. cbn [bind].
    destruct (step1 da pa ia ra) as [[ja ka]|] eqn:Ha; [|reflexivity].
    destruct (step1 db pb ib rb) as [[jb kb]|] eqn:Hb;
      [|replace (ja =? -1) with false by (apply step1_range in Ha; lia); reflexivity].
    pose proof (step1_range _ _ _ _ _ _ Pa Ha) as Ra. pose proof (step1_range _ _ _ _ _ _ Pb Hb) as Rb.
    destruct (step1 dc pc ic rc) as [[jc kc]|] eqn:Hc.
    2:{ replace (ja =? -1) with false by lia. replace (jb =? -1) with false by lia. reflexivity. }
    pose proof (step1_range _ _ _ _ _ _ Pc Hc) as Rc.
    replace (ja =? -1) with false by lia. replace (jb =? -1) with false by lia.
    replace (jc =? -1) with false by lia. cbn [orb].
    specialize (Hcell (ja, jb, jc, oj) (ka, kb, kc) eq_refl).
    set (s' := (ja, jb, jc, oj)) in *.
    specialize (Hvv s' Hv ltac:(cbn; lia) Hcell).
    specialize (Hnum s' Hv ltac:(cbn; lia) Hn Hcell).
    rewrite (step1_div _ _ _ _ _ _ Pa Ha), (step1_div _ _ _ _ _ _ Pb Hb), (step1_div _ _ _ _ _ _ Pc Hc).
    cbn [bind].
    assert (Hid : (match o_vac_id_sc o with
                   | [] => Ok (id_pc2sc (da, db, dc) (o_n o) s')
                   | _ => id_pc2sc_vac2 (da, db, dc) (o_n o) s' (o_vac_id_sc o)
                   end) = Ok (vac_index (o_vac_id_sc o) (id_pc2sc (da, db, dc) (o_n o) s'))).
    { destruct (o_vac_id_sc o) as [|v0 vr] eqn:Hvac.
      - unfold vac_index, count_below. cbn. f_equal. lia.
      - unfold id_pc2sc_vac2. apply vac_bis_spec; [discriminate|assumption]. }
    rewrite Hid. cbn [bind].
    destruct (id4_mem s' (o_vacs o)) eqn:Hmem.
    - apply id4_mem_In in Hmem. apply Hvv in Hmem as Hm1. rewrite Hm1.
      destruct (o_vac_id_sc o); [|reflexivity]. destruct (o_vacs o); [destruct Hmem|discriminate].
    - assert (Hni : ~ In s' (o_vacs o)) by (rewrite <- id4_mem_In; congruence).
      destruct (Hnum Hni) as [Hr _].
      replace (vac_index (o_vac_id_sc o) (id_pc2sc (da, db, dc) (o_n o) s') =? -1) with false by lia.
      cbn [negb]. rewrite orb_true_r. rewrite dr_of_ok by lia. reflexivity.
  Qed.

  Definition cands (o : oset) (tab : list hterm) : list cand := list_prod (enum (o_orb_id_pc o)) (enum tab).

  Definition gen_rows (o : oset) (pbc : bool * bool * bool) (sclat : mat) (pos : list vec) (cs : list cand) : list row :=
    flat_map (fun c => optl (rowf o pbc sclat pos c)) cs.

  Lemma flatM_map {A B C} (f : B -> res (list C)) (g : A -> B) l : flatM f (map g l) = flatM (fun x => f (g x)) l.
  Proof.
    unfold flatM. f_equal. induction l as [|a l IH]; cbn [mapM map]; [reflexivity|]. rewrite IH. reflexivity.
  Qed.

  (** [tab'] with numbering [etab] (a sublist of enum tab). *)
  Lemma build_hop_gen_ok o pbc sclat pos (tab' : list hterm) etab :
    vset_ok o -> positive (o_dim o) -> 0 <= o_n o -> Forall (term_ok (o_n o)) tab' ->
    length pos = length (o_orb_id_pc o) -> map snd etab = tab' ->
    build_hop_gen tab' (o_dim o) pbc (o_n o) (o_orb_id_pc o) (o_vac_id_sc o) sclat pos
    = Ok (gen_rows o pbc sclat pos (list_prod (enum (o_orb_id_pc o)) etab)).
  Proof.
    intros Hv Hp Hn Hf Hlen He. unfold build_hop_gen, gen_rows.
    transitivity (Ok (flat_map (fun x => flat_map (fun y => optl (rowf o pbc sclat pos (x, y))) etab)
                               (enum (o_orb_id_pc o)))).
    2:{ f_equal. rewrite (flat_map_prod (fun a b => optl (rowf o pbc sclat pos (a, b)))).
        apply flat_map_ext'. intros [a b] _. reflexivity. }
    apply flatM_ok. intros [k t] Hin. cbn [fst snd].
    rewrite enum_In in Hin. destruct Hin as [Hk Hnth].
    assert (Z.to_nat k < length (o_orb_id_pc o))%nat by (apply nth_error_Some; congruence).
    subst tab'. rewrite flatM_map. apply flatM_ok. intros [hn h] Hh. cbn [snd].
    apply hop_gen_one_ok; try assumption; [|lia].
    rewrite Forall_forall in Hf. apply Hf, in_map_iff. exists (hn, h). auto.
  Qed.

  Lemma build_hop_gen_all o pbc sclat pos tab :
    vset_ok o -> positive (o_dim o) -> 0 <= o_n o -> Forall (term_ok (o_n o)) tab ->
    length pos = length (o_orb_id_pc o) ->
    build_hop_gen tab (o_dim o) pbc (o_n o) (o_orb_id_pc o) (o_vac_id_sc o) sclat pos
    = Ok (gen_rows o pbc sclat pos (cands o tab)).
  Proof. intros. apply build_hop_gen_ok; try assumption. apply enum_snd. Qed.

  (** ** The fast path *)
  Lemma id_offset dim n a b c o : id_pc2sc dim n (a, b, c, 0) + o = id_pc2sc dim n (a, b, c, o).
  Proof. unfold id_pc2sc. destruct dim as [[? ?] ?]. lia. Qed.

  Lemma num0 o t : o_vacs o = [] -> num o t = id_pc2sc (o_dim o) (o_n o) t.
  Proof.
    intros H. unfold num, o_vac_id_sc. rewrite H. unfold vac_index, count_below. cbn. lia.
  Qed.

  Lemma step1_zero n p a : 0 <= a < n -> step1 n p a 0 = Some (a, 0).
  Proof.
    intros H. apply step1_spec; [lia|]. unfold along. split; [lia|split; [assumption|reflexivity]].
  Qed.

  Lemma pbc_step n p a r : 0 <= a < n -> p || (r =? 0) = true ->
    exists a' k, step1 n p a r = Some (a', k) /\ wrap_pbc (a + r) n p = Ok a' /\ fast_div (a + r) n = Ok k.
  Proof.
    intros Ha Hr. assert (Hn : 0 < n) by lia.
    assert (exists a' k, step1 n p a r = Some (a', k)) as (a' & k & Hs).
    { destruct p; [unfold step1; eauto|]. cbn [orb] in Hr. replace r with 0 by lia.
      rewrite step1_zero by assumption. eauto. }
    exists a', k. split; [assumption|]. rewrite step1_wrap, Hs by assumption. split; [reflexivity|].
    eapply step1_div; eassumption.
  Qed.

  Lemma hop_pbc_one_ok o pbc sclat pos ia ib ic (h : hterm) hn :
    o_vacs o = [] -> positive (o_dim o) -> 0 <= o_n o -> term_ok (o_n o) h ->
    length pos = length (o_orb_id_pc o) ->
    (let '(da, db, dc) := o_dim o in 0 <= ia < da /\ 0 <= ib < db /\ 0 <= ic < dc) ->
    is_pbc_term pbc h = true ->
    exists r, hop_pbc_one (o_dim o) pbc (o_n o) sclat pos ia ib ic h = Ok r /\
      (let t := (ia, ib, ic, fst (snd (fst h))) in
       rowf o pbc sclat pos ((id_pc2sc (o_dim o) (o_n o) t, t), (hn, h)) = Some r).
  Proof.
    intros Hv0 Hp Hn Ht Hlen Hcell Hpbc.
    assert (Hv : vset_ok o) by (unfold vset_ok; rewrite Hv0; split; constructor).
    pose proof (fun t => num0 o t Hv0) as Hnum0. pose proof (num_range o) as Hrange.
    rewrite Hv0 in Hrange.
    destruct h as [[[[ra rb] rc] [oi oj]] e]. cbv zeta. cbn [fst snd]. set (t := (ia, ib, ic, oi)).
    unfold rowf. rewrite Hv0. destruct Ht as [Hi Hj].
    assert (Hct : in_cell (o_dim o) (o_n o) t).
    { unfold t, in_cell. destruct (o_dim o) as [[da db] dc]. lia. }
    destruct (Hrange t Hv Hp Hn Hct ltac:(intros [])) as [Hrt _]. rewrite Hnum0 in Hrt.
    assert (Htgt : exists ja jb jc ka kb kc,
      tgt (o_dim o) pbc t (ra, rb, rc, (oi, oj), e) = Some ((ja, jb, jc, oj), (ka, kb, kc)) /\
      (let '(da, db, dc) := o_dim o in let '(pa, pb, pc) := pbc in
        wrap_pbc (ia + ra) da pa = Ok ja /\ wrap_pbc (ib + rb) db pb = Ok jb /\ wrap_pbc (ic + rc) dc pc = Ok jc /\
        fast_div (ia + ra) da = Ok ka /\ fast_div (ib + rb) db = Ok kb /\ fast_div (ic + rc) dc = Ok kc) /\
      (zero_rn (ra, rb, rc) = true -> (ja, jb, jc) = (ia, ib, ic) /\ (ka, kb, kc) = (0, 0, 0)) /\
      in_cell (o_dim o) (o_n o) (ja, jb, jc, oj)).
    { unfold is_pbc_term in Hpbc. unfold tgt, t.
      destruct (o_dim o) as [[da db] dc], pbc as [[pa pb] pc]. destruct Hcell as (Ca & Cb & Cc).
      rewrite !andb_true_iff in Hpbc. destruct Hpbc as [[P1 P2] P3].
      destruct (pbc_step da pa ia ra Ca P1) as (ja & ka & A1 & A2 & A3).
      destruct (pbc_step db pb ib rb Cb P2) as (jb & kb & B1 & B2 & B3).
      destruct (pbc_step dc pc ic rc Cc P3) as (jc & kc & C1 & C2 & C3).
      rewrite Z.eqb_refl, A1, B1, C1. do 6 eexists. split; [reflexivity|]. split; [tauto|]. split.
      - intros Hz. unfold zero_rn in Hz. assert (ra = 0 /\ rb = 0 /\ rc = 0) as (-> & -> & ->) by lia.
        rewrite step1_zero in A1, B1, C1 by assumption. split; congruence.
      - destruct Hp as (Q1 & Q2 & Q3).
        apply step1_range in A1; [|assumption]. apply step1_range in B1; [|assumption].
        apply step1_range in C1; [|assumption]. cbn. lia. }
    destruct Htgt as (ja & jb & jc & ka & kb & kc & Htgt & Hw & Hz & Hcj).
    match goal with |- context [tgt ?a ?b ?c ?d] => replace (tgt a b c d) with (Some ((ja, jb, jc, oj), (ka, kb, kc))) by (symmetry; exact Htgt) end.
    cbn [id4_mem existsb].
    destruct (Hrange _ Hv Hp Hn Hcj ltac:(intros [])) as [Hrj _]. rewrite Hnum0 in Hrj.
    eexists. split; [|reflexivity]. rewrite Hnum0. cbn [snd].
    rewrite <- (id_offset _ _ ja jb jc oj) in *. unfold t in *. rewrite <- (id_offset _ _ ia ib ic oi) in *.
    unfold hop_pbc_one.
    destruct (o_dim o) as [[da db] dc], pbc as [[pa pb] pc].
    destruct Hw as (W1 & W2 & W3 & D1 & D2 & D3).
    destruct (zero_rn (ra, rb, rc)) eqn:Hzr.
    - destruct (Hz eq_refl) as [E1 E2]. injection E1 as -> -> ->. injection E2 as -> -> ->.
      cbn [bind fst snd]. rewrite dr_of_ok by lia. reflexivity.
    - rewrite W1, W2, W3, D1, D2, D3. cbn [bind fst snd]. rewrite dr_of_ok by lia. reflexivity.
  Qed.

  Lemma mapM_opt {A B} (f : A -> res B) (g : A -> option B) l :
    (forall x, In x l -> exists y, f x = Ok y /\ g x = Some y) -> mapM f l = Ok (flat_map (fun x => optl (g x)) l).
  Proof.
    induction l as [|a l IH]; intros H; cbn [mapM flat_map]; [reflexivity|].
    destruct (H a (or_introl eq_refl)) as (y & H1 & H2). rewrite H1, H2. cbn [bind].
    rewrite IH; [reflexivity|]. intros x Hx; apply H; right; assumption.
  Qed.

  Lemma mapM_map {A B C} (f : B -> res C) (g : A -> B) l : mapM f (map g l) = mapM (fun x => f (g x)) l.
  Proof. induction l as [|a l IH]; cbn [mapM map]; [reflexivity|]. rewrite IH. reflexivity. Qed.

  (** Candidates in the order of the fast path. *)
  Definition cand_pbc (dim : rn3) (n ia ib ic : Z) (p : Z * hterm) : cand :=
    let t := (ia, ib, ic, fst (snd (fst (snd p)))) in ((id_pc2sc dim n t, t), p).
  Definition cands_pbc (dim : rn3) (n : Z) (etab : list (Z * hterm)) : list cand :=
    let '(da, db, dc) := dim in
    flat_map (fun ia => flat_map (fun ib => flat_map (fun ic =>
      map (cand_pbc dim n ia ib ic) etab) (crange dc)) (crange db)) (crange da).

  Lemma flat_map_flat {A B C} (f : B -> list C) (g : A -> list B) l :
    flat_map f (flat_map g l) = flat_map (fun x => flat_map f (g x)) l.
  Proof.
    induction l as [|a l IH]; cbn [flat_map]; [reflexivity|]. rewrite flat_map_app, IH. reflexivity.
  Qed.

  Lemma build_hop_pbc_ok o pbc sclat pos (tab' : list hterm) etab :
    o_vacs o = [] -> positive (o_dim o) -> 0 <= o_n o -> Forall (term_ok (o_n o)) tab' ->
    length pos = length (o_orb_id_pc o) -> map snd etab = tab' ->
    (forall h, In h tab' -> is_pbc_term pbc h = true) ->
    build_hop_pbc tab' (o_dim o) pbc (o_n o) sclat pos
    = Ok (gen_rows o pbc sclat pos (cands_pbc (o_dim o) (o_n o) etab)).
  Proof.
    intros Hv Hp Hn Hf Hlen He Hpb. unfold build_hop_pbc, cands_pbc, gen_rows.
    pose proof (fun ia ib ic h hn => hop_pbc_one_ok o pbc sclat pos ia ib ic h hn Hv Hp Hn) as Hone.
    destruct (o_dim o) as [[da db] dc] eqn:Hdim.
    rewrite flat_map_flat. apply flatM_ok. intros ia Hia.
    rewrite flat_map_flat. apply flatM_ok. intros ib Hib.
    rewrite flat_map_flat. apply flatM_ok. intros ic Hic.
    rewrite In_crange in *. subst tab'. rewrite mapM_map, flat_map_map. apply mapM_opt.
    intros [hn h] Hh. assert (Hin : In h (map snd etab)) by (apply in_map_iff; exists (hn, h); auto).
    rewrite Forall_forall in Hf.
    apply (Hone ia ib ic h hn (Hf h Hin) Hlen); [lia|]. apply Hpb. assumption.
  Qed.

  Lemma orb_id_cell o t : o_vacs o = [] -> positive (o_dim o) -> 0 <= o_n o ->
    in_cell (o_dim o) (o_n o) t ->
    In (id_pc2sc (o_dim o) (o_n o) t, t) (enum (o_orb_id_pc o)).
  Proof.
    intros Hv0 Hp Hn Hc. assert (Hv : vset_ok o) by (unfold vset_ok; rewrite Hv0; split; constructor).
    destruct (num_range o t Hv Hp Hn Hc ltac:(rewrite Hv0; intros [])) as [H1 H2].
    rewrite num0 in H1, H2 by assumption. apply enum_In. split; [lia|assumption].
  Qed.

  Lemma enum_orb_id_inv o k t : o_vacs o = [] -> positive (o_dim o) -> 0 <= o_n o ->
    In (k, t) (enum (o_orb_id_pc o)) -> in_cell (o_dim o) (o_n o) t /\ k = id_pc2sc (o_dim o) (o_n o) t.
  Proof.
    intros Hv0 Hp Hn Hin. assert (Hv : vset_ok o) by (unfold vset_ok; rewrite Hv0; split; constructor).
    rewrite enum_In in Hin. destruct Hin as [Hk Hin]. apply nth_orb_id in Hin; try assumption.
    destruct Hin as (H1 & _ & H2). split; [assumption|]. pose proof (num0 o t Hv0) as H. unfold num in H. lia.
  Qed.

  (** Dimension test on the candidate: bra orbital of the term. *)
  Definition bra_ok (c : cand) : bool := let '((_, (_, _, _, o)), (_, (_, (i, _), _))) := c in o =? i.

  Lemma rowf_bra o pbc sclat pos c r : rowf o pbc sclat pos c = Some r -> bra_ok c = true.
  Proof.
    destruct c as [[k [[[a b] c] oo]] [hn [[[[ra rb] rc] [i j]] e]]]. unfold rowf, tgt, bra_ok.
    destruct (o_dim o) as [[da db] dc], pbc as [[pa pb] pc]. destruct (oo =? i); [reflexivity|discriminate].
  Qed.

  Lemma NoDup_flat_map {A B} (f : A -> list B) l :
    NoDup l -> (forall x, In x l -> NoDup (f x)) ->
    (forall x y z, In x l -> In y l -> In z (f x) -> In z (f y) -> x = y) -> NoDup (flat_map f l).
  Proof.
    induction 1 as [|a l Ha Hl IH]; intros H1 H2; cbn [flat_map]; [constructor|].
    assert (Hr : NoDup (flat_map f l)).
    { apply IH; intros; [apply H1; right; assumption|]. eapply H2; try eassumption; right; assumption. }
    assert (Hd : forall z, In z (f a) -> ~ In z (flat_map f l)).
    { intros z Hz Hin. apply in_flat_map in Hin. destruct Hin as (y & Hy & Hzy).
      assert (a = y) by (eapply H2; try eassumption; [left; reflexivity|right; assumption]). subst; contradiction. }
    specialize (H1 a (or_introl eq_refl)). revert Hd H1. generalize (f a) as u. clear - Hr.
    induction u as [|x u IHu]; cbn [app]; intros Hd H1; [assumption|].
    pose proof (NoDup_cons_iff x u) as Hc. apply Hc in H1. destruct H1 as [Hx Hu]. constructor.
    - intros Hin. apply in_app_or in Hin. destruct Hin as [Hin|Hin]; [contradiction|].
      exact (Hd x (or_introl eq_refl) Hin).
    - apply IHu; [|assumption]. intros y Hy. apply Hd. right; assumption.
  Qed.

  Lemma cands_pbc_In dim n etab c :
    In c (cands_pbc dim n etab) <->
    exists ia ib ic p, (let '(da, db, dc) := dim in 0 <= ia < da /\ 0 <= ib < db /\ 0 <= ic < dc) /\
      In p etab /\ c = cand_pbc dim n ia ib ic p.
  Proof.
    unfold cands_pbc. destruct dim as [[da db] dc]. rewrite in_flat_map. split.
    - intros (ia & Ha & H). apply in_flat_map in H. destruct H as (ib & Hb & H).
      apply in_flat_map in H. destruct H as (ic & Hc & H). apply in_map_iff in H.
      destruct H as (p & <- & Hp). rewrite In_crange in *. exists ia, ib, ic, p. tauto.
    - intros (ia & ib & ic & p & (Ha & Hb & Hc) & Hp & ->).
      exists ia. split; [apply In_crange; assumption|]. apply in_flat_map.
      exists ib. split; [apply In_crange; assumption|]. apply in_flat_map.
      exists ic. split; [apply In_crange; assumption|]. apply in_map. assumption.
  Qed.

  Lemma cand_pbc_inj dim n ia ib ic p ia' ib' ic' p' :
    cand_pbc dim n ia ib ic p = cand_pbc dim n ia' ib' ic' p' -> ia = ia' /\ ib = ib' /\ ic = ic' /\ p = p'.
  Proof. unfold cand_pbc. cbv zeta. intros H. injection H as _ -> -> -> _ ->. auto. Qed.

  Lemma NoDup_cands_pbc dim n etab : NoDup etab -> NoDup (cands_pbc dim n etab).
  Proof.
    intros He. unfold cands_pbc. destruct dim as [[da db] dc].
    apply NoDup_flat_map; [apply NoDup_zrange| |].
    - intros ia _. apply NoDup_flat_map; [apply NoDup_zrange| |].
      + intros ib _. apply NoDup_flat_map; [apply NoDup_zrange| |].
        * intros ic _. apply NoDup_map_inj; [|assumption].
          intros x y _ _ H. apply cand_pbc_inj in H. tauto.
        * intros ic ic' z _ _ H1 H2. apply in_map_iff in H1, H2. destruct H1 as (p & <- & _), H2 as (p' & H2 & _).
          apply cand_pbc_inj in H2. symmetry; tauto.
      + intros ib ib' z _ _ H1 H2. apply in_flat_map in H1, H2.
        destruct H1 as (ic & _ & H1), H2 as (ic' & _ & H2).
        apply in_map_iff in H1, H2. destruct H1 as (p & <- & _), H2 as (p' & H2 & _).
        apply cand_pbc_inj in H2. symmetry; tauto.
    - intros ia ia' z _ _ H1 H2. apply in_flat_map in H1, H2.
      destruct H1 as (ib & _ & H1), H2 as (ib' & _ & H2). apply in_flat_map in H1, H2.
      destruct H1 as (ic & _ & H1), H2 as (ic' & _ & H2).
      apply in_map_iff in H1, H2. destruct H1 as (p & <- & _), H2 as (p' & H2 & _).
      apply cand_pbc_inj in H2. symmetry; tauto.
  Qed.

  Lemma filter_perm_split {A} (f : A -> bool) l : Permutation l (filter f l ++ filter (fun x => negb (f x)) l).
  Proof.
    induction l as [|a l IH]; cbn [filter]; [constructor|]. destruct (f a); cbn [negb app].
    - constructor. assumption.
    - apply Permutation_cons_app. assumption.
  Qed.

  Lemma in_prod' (l : list (Z * id4)) (m : list (Z * hterm)) (x : Z * id4) (y : Z * hterm) :
    @In cand (x, y) (list_prod l m) <-> In x l /\ In y m.
  Proof. apply in_prod_iff. Qed.

  Lemma rows_perm {A B} (f : A -> option B) l m :
    NoDup l -> NoDup m -> (forall c r, f c = Some r -> (In c l <-> In c m)) ->
    Permutation (flat_map (fun c => optl (f c)) l) (flat_map (fun c => optl (f c)) m).
  Proof.
    intros Hl Hm H. rewrite <- (flat_map_filter_isS f l), <- (flat_map_filter_isS f m).
    apply perm_opt, NoDup_Permutation; [apply NoDup_filter; assumption..|].
    intros x. rewrite !filter_In. split; intros [H1 H2]; (split; [|assumption]);
      destruct (f x) eqn:Hf; try discriminate; apply H in Hf; tauto.
  Qed.
  Lemma NoDup_app_disj {A} (l m : list A) :
    NoDup l -> NoDup m -> (forall x, In x l -> In x m -> False) -> NoDup (l ++ m).
  Proof.
    induction 1 as [|a l Ha Hl IH]; cbn [app]; intros Hm Hd; [assumption|]. constructor.
    - intros Hin. apply in_app_or in Hin. destruct Hin as [Hin|Hin]; [contradiction|].
      exact (Hd a (or_introl eq_refl) Hin).
    - apply IH; [assumption|]. intros x H1 H2. apply (Hd x); [right|]; assumption.
  Qed.

  (** Sorted candidates: the fast path visits the same candidates. *)
  Lemma fast_perm o pbc sclat pos tab :
    o_vacs o = [] -> positive (o_dim o) -> 0 <= o_n o -> Forall (term_ok (o_n o)) tab ->
    let etab := enum tab in
    let f := fun p : Z * hterm => is_pbc_term pbc (snd p) in
    Permutation (gen_rows o pbc sclat pos (cands_pbc (o_dim o) (o_n o) (filter f etab)) ++
                 gen_rows o pbc sclat pos (list_prod (enum (o_orb_id_pc o)) (filter (fun p => negb (f p)) etab)))
                (gen_rows o pbc sclat pos (cands o tab)).
  Proof.
    intros Hv0 Hp Hn Hf etab f. unfold gen_rows, cands. fold etab.
    rewrite <- flat_map_app. apply (rows_perm (rowf o pbc sclat pos)).
    - apply NoDup_app_disj.
      + apply NoDup_cands_pbc, NoDup_filter, NoDup_enum.
      + apply NoDup_list_prod; [apply NoDup_enum|apply NoDup_filter, NoDup_enum].
      + intros [s p] H1 H2. apply in_prod_iff in H2. destruct H2 as [_ H2]. apply filter_In in H2.
        apply cands_pbc_In in H1. destruct H1 as (ia & ib & ic & q & _ & H1 & He). apply filter_In in H1.
        unfold cand_pbc in He. injection He as _ <-. destruct H1 as [_ H1], H2 as [_ H2]. unfold f in *.
        rewrite H1 in H2. discriminate.
    - apply NoDup_list_prod; apply NoDup_enum.
    - intros c r Hr. rewrite in_app_iff. pose proof (rowf_bra _ _ _ _ _ _ Hr) as Hb.
      destruct c as [[k [[[a b] c] oo]] [hn h]]. rewrite !(in_prod' _ _ (k, (a, b, c, oo)) (hn, h)).
      rewrite cands_pbc_In. split.
      + intros [(ia & ib & ic & p & Hc & Hin & He)|[H1 H2]].
        * unfold cand_pbc in He. cbv zeta in He. injection He as -> -> -> -> -> <-. cbn [snd].
          apply filter_In in Hin. destruct Hin as [Hin _]. split; [|assumption].
          apply orb_id_cell; try assumption.
          rewrite Forall_forall in Hf.
          assert (Ht : term_ok (o_n o) h).
          { apply Hf. rewrite <- (enum_snd tab). apply in_map_iff. exists (hn, h). auto. }
          destruct h as [[R [i j]] e]. destruct Ht as [Ht _]. cbn [fst snd].
          destruct (o_dim o) as [[da db] dc]. cbn. lia.
        * apply filter_In in H2. tauto.
      + intros [H1 H2]. destruct (f (hn, h)) eqn:Hfh.
        * left. apply enum_orb_id_inv in H1; try assumption. destruct H1 as [Hc ->].
          exists a, b, c, (hn, h). split; [|split].
          -- destruct (o_dim o) as [[da db] dc]. cbn in Hc. lia.
          -- apply filter_In. auto.
          -- unfold cand_pbc. cbv zeta. destruct h as [[[[ra rb] rc] [i j]] e]. cbn [fst snd].
             cbn [bra_ok] in Hb. replace oo with i by lia. reflexivity.
        * right. split; [assumption|]. apply filter_In. rewrite Hfh. auto.
  Qed.
End Super.
