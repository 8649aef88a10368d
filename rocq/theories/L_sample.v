(** Proofs about sample arrays: blocks. *)
From Verif Require Import Prelude Vec Cx M_hop M_pc M_inter M_index M_super M_bloch M_sample
  S_index S_pc S_super S_reach S_sample S_comp L_base L_hop L_pc L_index L_super L_super2 L_super4 L_super6.

Lemma zsum_total l : zsum l = total l.
Proof.
  unfold zsum. assert (H : forall l a, fold_left Z.add l a = a + total l).
  { clear. induction l as [|x l IH]; intros a; cbn [fold_left total fold_right]; [lia|]. rewrite IH. unfold total. lia. }
  rewrite H. lia.
Qed.

Lemma before_app ns k : before ns k = total (firstn k ns).
Proof. reflexivity. Qed.

Lemma total_app a b : total (a ++ b) = total a + total b.
Proof. unfold total. induction a as [|x a IH]; cbn [app fold_right]; lia. Qed.

Lemma concat_blocks {A} (ls : list (list A)) :
  blocks (map (fun b => Z.of_nat (length b)) ls) ls (concat ls).
Proof.
  split; [reflexivity|]. split.
  - induction ls as [|b ls IH]; cbn [concat map]; [reflexivity|]. rewrite app_length. unfold total in *. cbn [fold_right]. lia.
  - induction ls as [|b0 ls IH]; intros k o b x Hk Ho; [destruct k; discriminate|].
    destruct k as [|k]; cbn [nth_error] in Hk.
    + injection Hk as ->. unfold before. cbn [firstn total fold_right Z.to_nat Nat.add concat].
      rewrite nth_error_app1; [exact Ho|]. apply nth_error_Some. congruence.
    + cbn [concat map]. specialize (IH k o b x Hk Ho). unfold before in *. cbn [firstn]. change (total (?a :: ?l)) with (a + total l).
      assert (Hp : 0 <= total (firstn k (map (fun b : list A => Z.of_nat (length b)) ls))).
      { clear. rewrite firstn_map. generalize (firstn k ls) as l. induction l as [|b l IH]; cbn [map]; unfold total in *; cbn [fold_right]; lia. }
      rewrite nth_error_app2 by lia.
      replace (Z.to_nat _ + o - length b0)%nat with (Z.to_nat (total (firstn k (map (fun b => Z.of_nat (length b)) ls))) + o)%nat by lia. exact IH.
Qed.

Lemma mapM_Forall2 {A B} (f : A -> res B) l ys : Forall2 (fun x y => f x = Ok y) l ys -> mapM f l = Ok ys.
Proof. induction 1 as [|x y l ys H _ IH]; cbn [mapM]; [reflexivity|]. rewrite H. cbn [bind]. rewrite IH. reflexivity. Qed.

Lemma Forall2_nth {A B} (P : A -> B -> Prop) l l' k x : Forall2 P l l' -> nth_error l k = Some x -> exists y, nth_error l' k = Some y /\ P x y.
Proof.
  intros H. revert k. induction H as [|a b l l' Hab H IH]; intros k; destruct k as [|k]; cbn [nth_error]; try discriminate.
  - intros E. injection E as ->. eauto.
  - apply IH.
Qed.
Lemma Forall2_nth2 {A B} (P : A -> B -> Prop) l l' k x y : Forall2 P l l' -> nth_error l k = Some x -> nth_error l' k = Some y -> P x y.
Proof. intros H Hx Hy. destruct (Forall2_nth P l l' k x H Hx) as (y' & Hy' & HP). congruence. Qed.
Lemma Forall2_of_nth {A B} (P : A -> B -> Prop) l l' : length l = length l' ->
  (forall k x y, nth_error l k = Some x -> nth_error l' k = Some y -> P x y) -> Forall2 P l l'.
Proof.
  revert l'. induction l as [|a l IH]; intros [|b l'] Hl H; try discriminate; constructor.
  - apply (H 0%nat); reflexivity.
  - apply IH; [cbn in Hl; lia|]. intros k x y Hx Hy. apply (H (S k)); assumption.
Qed.

Lemma index_of_first x l : In x l -> exists k, index_of x l = Ok (Z.of_nat k) /\ first_at l x k.
Proof.
  induction l as [|y l IH]; intros Hin; [destruct Hin|]. cbn [index_of]. destruct (x =? y) eqn:Hxy.
  - exists 0%nat. split; [reflexivity|]. split; [cbn; f_equal; lia|]. intros m Hm; lia.
  - destruct IH as (k & Hk & Hf & Hm); [destruct Hin; [lia|assumption]|]. exists (S k). rewrite Hk. cbn [bind]. split; [f_equal; lia|].
    split; [exact Hf|]. intros m Hlt. destruct m as [|m]; cbn [nth_error]; [intros H; injection H as ->; lia|]. apply Hm. lia.
Qed.

Section Blocks.
  Context {E T : Type} {SE : Scalar E} {ST : Scalar T} (conj : E -> E).
  Notation row := (M_super.row E T).
  Notation sample := (sample E T).
  Notation mvd := (moved (@r_i E T) (@r_j E T) (@r_v E T) (@r_dr E T)).

  Lemma parse_ok args : forall scs hops (q : list Z * list (Z * Z * inter E)),
    parse args scs hops = Ok q ->
    fst q = scs ++ flat_map (fun a => match a with ASC i => [i] | _ => [] end) args /\
    snd q = hops ++ flat_map (fun a => match a with AHop b k x => [(b, k, x)] | _ => [] end) args /\
    ~ In AOther args.
  Proof.
    induction args as [|a args IH]; intros scs hops q H; cbn [parse flat_map] in *.
    - injection H as <-. rewrite !app_nil_r. auto.
    - destruct a as [i|b k x|]; [| |discriminate]; destruct (IH _ _ _ H) as (H1 & H2 & H3); rewrite H1, H2, <- ?app_assoc;
        (split; [reflexivity|split; [reflexivity|]]); intros [Hc|Hc]; [discriminate|auto|discriminate|auto].
  Qed.

  Definition sc_args (args : list (arg E)) : list Z := flat_map (fun a => match a with ASC i => [i] | _ => [] end) args.
  Definition hop_args (args : list (arg E)) : list (Z * Z * inter E) :=
    flat_map (fun a => match a with AHop b k x => [(b, k, x)] | _ => [] end) args.

  Lemma make_sample_ok args (s : sample) : make_sample args = Ok s ->
    m_sc s = sc_args args /\ m_hop s = hop_args args /\ m_sc s <> [] /\
    m_eng s = None /\ m_pos s = None /\ m_rows s = None /\ m_rescale s = s1 /\
    forall b k x, In (b, k, x) (m_hop s) -> In b (m_sc s) /\ In k (m_sc s).
  Proof.
    unfold make_sample. destruct args as [|a0 args0] eqn:Ha; [discriminate|]. rewrite <- Ha.
    destruct (parse args [] []) as [[scs hops]|x] eqn:Hp; [|discriminate]. cbn [bind].
    destruct (parse_ok _ _ _ _ Hp) as (H1 & H2 & H3). cbn [fst snd app] in H1, H2.
    destruct (forallb _ hops) eqn:Hf; [|discriminate]. intros He. injection He as <-. cbn [m_sc m_hop m_eng m_pos m_rows m_rescale].
    rewrite forallb_forall in Hf.
    assert (Hc : forall b k x, In (b, k, x) hops -> In b scs /\ In k scs).
    { intros b k x Hin. specialize (Hf _ Hin). cbn in Hf. apply andb_prop in Hf. rewrite !zmem_In in Hf. exact Hf. }
    split; [exact H1|]. split; [exact H2|]. split; [|repeat (split; [reflexivity|]); exact Hc].
    intros ->. destruct a0 as [i|b k x|].
    - rewrite Ha in H1. discriminate.
    - assert (Hin : In (b, k, x) hops) by (rewrite H2, Ha; left; reflexivity). destruct (Hc _ _ _ Hin) as [[] _].
    - apply H3. rewrite Ha. left. reflexivity.
  Qed.

  Context (h : heap E T).
  (** Numbers of orbitals; true of reachable supercells. *)
  Definition sized (s : sample) : Prop := forall i, In i (m_sc s) ->
    Z.of_nat (length (o_orb_id_pc (s_os (fst (h i))))) = num_orb_sc (s_os (fst (h i))).

  Lemma ind_start_nth s k i : nth_error (m_sc s) k = Some i -> rd (ind_start h s) (Z.of_nat k) = Ok (before (sizes h s) k).
  Proof.
    intros Hk. apply rd_ok. unfold ind_start. rewrite nth_error_map.
    assert (k < length (sizes h s))%nat by (unfold sizes; rewrite map_length; apply nth_error_Some; congruence).
    rewrite (nth_error_nth' _ 0%nat) by (rewrite seq_length; lia). rewrite seq_nth by lia. cbn [option_map]. rewrite zsum_total. reflexivity.
  Qed.

  Lemma len_mapM {A B} (f : A -> res B) l ys : mapM f l = Ok ys -> length ys = length l.
  Proof.
    revert ys. induction l as [|x l IH]; cbn [mapM]; intros ys H; [injection H as <-; reflexivity|].
    destruct (f x); [|discriminate]. cbn [bind] in H. destruct (mapM f l); [|discriminate]. injection H as <-. cbn. f_equal. apply IH. reflexivity.
  Qed.

  Lemma fresh_eng_ok s engs : sized s -> Forall2 (fun i l => sc_orb_eng h i = Ok l) (m_sc s) engs ->
    fresh_eng h s = Ok (concat engs) /\ blocks (sizes h s) engs (concat engs).
  Proof.
    intros Hz HF. unfold fresh_eng, flatM. rewrite (mapM_Forall2 _ _ _ HF). cbn [bind]. split; [reflexivity|].
    replace (sizes h s) with (map (fun b : list T => Z.of_nat (length b)) engs); [apply concat_blocks|].
    unfold sizes. unfold sized in Hz. induction HF as [|i l is ls H HF IH]; [reflexivity|]. cbn [map]. f_equal.
    - unfold sc_orb_eng, build_orb_eng in H. apply len_mapM in H. rewrite H. apply Hz. left. reflexivity.
    - apply IH. intros j Hj. apply Hz. right. exact Hj.
  Qed.
  Lemma fresh_pos_ok s poss : sized s ->
    Forall2 (fun i l => get_orb_pos (fst (h i)) = Ok l) (m_sc s) poss ->
    (forall i l, In i (m_sc s) -> get_orb_pos (fst (h i)) = Ok l -> length l = length (o_orb_id_pc (s_os (fst (h i))))) ->
    fresh_pos h s = Ok (concat poss) /\ blocks (sizes h s) poss (concat poss).
  Proof.
    intros Hz HF Hl. unfold fresh_pos, flatM. rewrite (mapM_Forall2 _ _ _ HF). cbn [bind]. split; [reflexivity|].
    replace (sizes h s) with (map (fun b : list (vec T) => Z.of_nat (length b)) poss); [apply concat_blocks|].
    unfold sizes. unfold sized in Hz. revert Hz Hl. induction HF as [|i l is ls H HF IH]; intros Hz Hl; [reflexivity|]. cbn [map]. f_equal.
    - rewrite (Hl i l); [|left; reflexivity|exact H]. apply Hz. left. reflexivity.
    - apply IH; [intros j Hj; apply Hz; right; exact Hj|intros j l' Hj; apply Hl; right; exact Hj].
  Qed.

  Definition inter_of (t : Z * Z * inter E) : res (list row) :=
    let '(b, k, x) := t in inter_get_hop (fst (h b)) (fst (h k)) x false.

  Lemma join_float l : forall d, fold_left join_dtype l d = Float64 <-> d = Float64 \/ In Float64 l.
  Proof.
    induction l as [|x l IH]; intros d; cbn [fold_left In]; [tauto|]. rewrite IH.
    destruct d, x; cbn; intuition congruence.
  Qed.

  Lemma shift_moved di dj (rows : list row) : Forall2 (mvd di dj) rows (map (shift di dj) rows).
  Proof. induction rows as [|r rows IH]; cbn [map]; constructor; [repeat split|exact IH]. Qed.

  Lemma nth_error_combine {A B} (l : list A) (l' : list B) k : nth_error (combine l l') k =
    match nth_error l k, nth_error l' k with Some a, Some b => Some (a, b) | _, _ => None end.
  Proof.
    revert l' k. induction l as [|a l IH]; intros [|b l'] [|k]; cbn [combine nth_error]; try reflexivity.
    - destruct (nth_error l k); reflexivity.
    - apply IH.
  Qed.
  Lemma nth_error_enum {A} (l : list A) k : nth_error (enum l) k = option_map (fun x => (Z.of_nat k, x)) (nth_error l k).
  Proof.
    unfold enum. rewrite nth_error_combine. destruct (nth_error l k) as [x|] eqn:Hx.
    - assert (k < length l)%nat by (apply nth_error_Some; congruence). rewrite nth_error_zrange. replace (k <? length l)%nat with true by lia. reflexivity.
    - destruct (nth_error (zrange (length l)) k); reflexivity.
  Qed.

  Lemma fresh_rows_ok s hs is :
    (forall b k x, In (b, k, x) (m_hop s) -> In b (m_sc s) /\ In k (m_sc s)) ->
    Forall2 (fun i q => get_hop conj (fst (h i)) = Ok q) (m_sc s) hs ->
    Forall2 (fun t q => inter_of t = Ok q) (m_hop s) is ->
    exists Bs Is dt, fresh_rows conj h s = Ok (concat Bs ++ concat Is, dt) /\
      (dt = Float64 <-> In Float64 (map snd hs)) /\ length Bs = length hs /\ length Is = length is /\
      (forall m q B, nth_error hs m = Some q -> nth_error Bs m = Some B ->
         Forall2 (mvd (before (sizes h s) m) (before (sizes h s) m)) (fst q) B) /\
      (forall m b k x q I, nth_error (m_hop s) m = Some (b, k, x) -> nth_error is m = Some q -> nth_error Is m = Some I ->
         exists mb mk, first_at (m_sc s) b mb /\ first_at (m_sc s) k mk /\
           Forall2 (mvd (before (sizes h s) mb) (before (sizes h s) mk)) q I).
  Proof.
    intros Hc HF HG. unfold fresh_rows.
    set (ns := sizes h s).
    set (shB := fun q : Z * (list row * dtype) => (map (shift (before ns (Z.to_nat (fst q))) (before ns (Z.to_nat (fst q)))) (fst (snd q)), snd (snd q))).
    assert (HA : Forall2 (fun (q : Z * Z) y => (let '(k, i) := q in
            bind (get_hop conj (fst (h i))) (fun rd0 => bind (rd (ind_start h s) k) (fun d => Ok (map (shift d d) (fst rd0), snd rd0)))) = Ok y)
              (enum (m_sc s)) (map shB (enum hs))).
    { apply Forall2_of_nth.
      - rewrite map_length. unfold enum. rewrite !combine_length, !length_zrange. pose proof (Forall2_len _ _ _ HF). lia.
      - intros k [k' i] y Hx Hy. rewrite nth_error_enum in Hx. rewrite nth_error_map, nth_error_enum in Hy.
        destruct (nth_error (m_sc s) k) as [i0|] eqn:Hi; [|discriminate]. cbn in Hx. injection Hx as <- <-.
        destruct (nth_error hs k) as [q|] eqn:Hq; [|discriminate]. cbn in Hy. injection Hy as <-.
        rewrite (Forall2_nth2 _ _ _ _ _ _ HF Hi Hq). cbn [bind]. rewrite (ind_start_nth s k i0 Hi). cbn [bind].
        unfold shB. cbn [fst snd]. rewrite Nat2Z.id. reflexivity. }
    rewrite (mapM_Forall2 _ _ _ HA). cbn [bind].
    assert (HB : exists Is, mapM (fun q : Z * Z * inter E => let '(b, k, x) := q in
            bind (inter_get_hop (fst (h b)) (fst (h k)) x false) (fun rows =>
            bind (index_of b (m_sc s)) (fun ib => bind (index_of k (m_sc s)) (fun ik =>
            bind (rd (ind_start h s) ib) (fun db => bind (rd (ind_start h s) ik) (fun dk => Ok (map (shift db dk) rows))))))) (m_hop s) = Ok Is /\
       length Is = length is /\
      (forall m b k x q I, nth_error (m_hop s) m = Some (b, k, x) -> nth_error is m = Some q -> nth_error Is m = Some I ->
         exists mb mk, first_at (m_sc s) b mb /\ first_at (m_sc s) k mk /\ Forall2 (mvd (before ns mb) (before ns mk)) q I)).
    { clear HA HF. revert Hc HG. generalize (m_hop s) as ts. intros ts Hc HG. induction HG as [|[[b k] x] q ts qs H HG IH].
      - exists []. split; [reflexivity|]. split; [reflexivity|]. intros [|m]; discriminate.
      - destruct IH as (Is & HI1 & HI2 & HI3); [intros; eapply Hc; right; eassumption|].
        destruct (Hc b k x (or_introl eq_refl)) as [Hb Hk].
        destruct (index_of_first _ _ Hb) as (mb & Hmb & Fb). destruct (index_of_first _ _ Hk) as (mk & Hmk & Fk).
        exists (map (shift (before ns mb) (before ns mk)) q :: Is). split; [|split].
        + cbn [mapM]. cbn [inter_of] in H. rewrite H. cbn [bind]. rewrite Hmb, Hmk. cbn [bind].
          rewrite (ind_start_nth s mb b (proj1 Fb)), (ind_start_nth s mk k (proj1 Fk)). cbn [bind]. rewrite HI1. reflexivity.
        + cbn. lia.
        + intros [|m] b' k' x' q' I Ht Hq HI; cbn [nth_error] in *.
          * injection Ht as <- <- <-. injection Hq as <-. injection HI as <-. exists mb, mk. split; [exact Fb|]. split; [exact Fk|]. apply shift_moved.
          * eapply HI3; eassumption. }
    destruct HB as (Is & HI1 & HI2 & HI3). rewrite HI1. cbn [bind].
    exists (map fst (map shB (enum hs))), Is. eexists. split; [reflexivity|]. split; [|split; [|split; [|split]]].
    - rewrite join_float. replace (map snd (map shB (enum hs))) with (map snd hs).
      + intuition congruence.
      + rewrite map_map. unfold shB. cbn [snd]. rewrite <- (map_map snd snd). rewrite enum_snd. reflexivity.
    - rewrite !map_length. unfold enum. rewrite combine_length, length_zrange. lia.
    - exact HI2.
    - intros m q B Hq HBm. rewrite !nth_error_map, nth_error_enum, Hq in HBm. cbn in HBm. injection HBm as <-.
      rewrite Nat2Z.id. apply shift_moved.
    - exact HI3.
  Qed.

  (** Indices stay inside of the sample. *)
  Lemma before_le ns k n : (forall x, In x ns -> 0 <= x) -> nth_error ns k = Some n -> 0 <= before ns k /\ before ns k + n <= total ns.
  Proof.
    revert k. induction ns as [|a ns IH]; intros [|k] Hp Hk; cbn [nth_error] in Hk; try discriminate.
    - injection Hk as ->. unfold before, total. cbn [firstn fold_right].
      assert (0 <= fold_right Z.add 0 ns). { clear IH. induction ns as [|b ns IH]; cbn [fold_right]; [lia|].
        assert (0 <= b) by (apply Hp; right; left; reflexivity). assert (0 <= fold_right Z.add 0 ns); [|lia].
        apply IH. intros y [->|Hy]; apply Hp; [left; reflexivity|right; right; exact Hy]. }
      lia.
    - destruct (IH k) as [H1 H2]; [intros; apply Hp; right; assumption|exact Hk|].
      assert (0 <= a) by (apply Hp; left; reflexivity). unfold before, total in *. cbn [firstn fold_right]. lia.
  Qed.
End Blocks.

Section Component.
  Context {E T X L : Type} {SE : Scalar E} {ST : Scalar T} (conj : E -> E) (zero : X) (frac_of : X * X * X -> vec T) (L0 : L).
  Hypothesis conj_conj : forall e, conj (conj e) = e.

  Lemma component_ok (q : sc E T * list T) : component conj zero frac_of L0 q ->
    sc_wf (fst q) /\ Z.of_nat (length (snd q)) = o_n (s_os (fst q)) /\
    Z.of_nat (length (o_orb_id_pc (s_os (fst q)))) = num_orb_sc (s_os (fst q)) /\
    (exists l, build_orb_eng (snd q) (o_orb_id_pc (s_os (fst q))) = Ok l) /\
    (exists l, get_orb_pos (fst q) = Ok l) /\
    (forall l, get_orb_pos (fst q) = Ok l -> length l = length (o_orb_id_pc (s_os (fst q)))).
  Proof.
    intros (os & lat & org & dim & pbc & vacs & pmod & s & sos & Hb & Hs & He).
    destruct (builds_wf conj zero frac_of conj_conj _ _ _ _ _ _ _ _ Hb) as (Hwf & _ & _ & _ & _ & Hn & _).
    pose proof (sc_run_wf conj sos s Hwf) as Hwf'. rewrite <- Hs in Hwf'.
    destruct (run_same conj sos s) as (_ & S2 & _). rewrite <- Hs in S2.
    assert (Hl : Z.of_nat (length (snd q)) = o_n (s_os (fst q))).
    { rewrite He, map_length. unfold num_orb in Hn. rewrite S2. lia. }
    split; [exact Hwf'|]. split; [exact Hl|]. split; [apply length_orb_id; apply Hwf'|]. split; [|split].
    - unfold build_orb_eng. assert (Hin : forall t, In t (o_orb_id_pc (s_os (fst q))) -> exists y, rd (snd q) (snd t) = Ok y).
      { intros [[[a b] c] o] Hin. apply In_orb_id in Hin; try apply Hwf'. destruct Hin as [Hin _]. cbn [snd].
        destruct (o_dim (s_os (fst q))) as [[da db] dc]. cbn in Hin. unfold rd. replace (o <? 0) with false by lia.
        destruct (nth_error (snd q) (Z.to_nat o)) eqn:Hne; [eauto|]. apply nth_error_None in Hne. lia. }
      revert Hin. generalize (o_orb_id_pc (s_os (fst q))) as ids. induction ids as [|t ids IH]; intros Hin; [exists []; reflexivity|].
      cbn [mapM]. destruct (Hin t (or_introl eq_refl)) as (y & ->). cbn [bind].
      destruct IH as (l & ->); [intros; apply Hin; right; assumption|]. exists (y :: l). reflexivity.
    - rewrite get_orb_pos_ok by assumption. eauto.
    - intros l Hl'. apply get_orb_pos_len; assumption.
  Qed.
End Component.
