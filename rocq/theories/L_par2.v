(** Proofs about collective operations and the k-point loops. *)
From Verif Require Import Prelude Vec Cx M_super M_sample M_par S_sample S_par L_base L_super L_sample L_samp2 L_csr L_par.
From Coq Require Import Permutation.

(** ** Loops and maps *)
Lemma loop_pure {S A B} (f : A -> res B) (step : S -> A -> B -> S) (v : A -> B) l : forall s,
  (forall x, In x l -> f x = Ok (v x)) ->
  loop (fun s x => bind (f x) (fun y => Ok (step s x y))) l s = Ok (fold_left (fun s x => step s x (v x)) l s).
Proof.
  induction l as [|x l IH]; intros s H; [reflexivity|]. rewrite loop_cons, H by (left; reflexivity). cbn [bind fold_left].
  apply IH. intros y Hy. apply H. right. exact Hy.
Qed.
Lemma loop_all {S A B} (f : A -> res B) (step : S -> A -> B -> S) l : forall s s',
  loop (fun s x => bind (f x) (fun y => Ok (step s x y))) l s = Ok s' -> forall x, In x l -> exists y, f x = Ok y.
Proof.
  induction l as [|x l IH]; intros s s' H; [intros ? []|]. rewrite loop_cons in H.
  destruct (f x) as [y|] eqn:Hy; cbn [bind] in H; [|discriminate]. intros z [<-|Hz]; [eauto|]. eapply IH; eassumption.
Qed.
Lemma mapM_bind {A B C} (d : A -> res B) (F : B -> res C) l : forall gs, mapM d l = Ok gs -> mapM (fun x => bind (d x) F) l = mapM F gs.
Proof.
  induction l as [|x l IH]; intros gs H; cbn [mapM] in *; [injection H as <-; reflexivity|].
  destruct (d x) as [y|]; cbn [bind] in *; [|discriminate]. destruct (mapM d l) as [ys|]; cbn [bind] in *; [|discriminate].
  injection H as <-. cbn [mapM]. rewrite (IH ys eq_refl). reflexivity.
Qed.
Lemma mapM_all {A B} (f : A -> res B) l ys : mapM f l = Ok ys -> forall x, In x l -> exists y, f x = Ok y /\ In y ys.
Proof.
  intros H. apply mapM_inv in H. induction H as [|x y l ys Hx H IH]; intros z Hz; [destruct Hz|].
  destruct Hz as [<-|Hz]; [exists y; split; [exact Hx|left; reflexivity]|]. destruct (IH z Hz) as (w & Hw & Hi). exists w. split; [exact Hw|right; exact Hi].
Qed.

Lemma fill_at {J V} (v : Z -> J -> V) ks : forall (a : arr (Z * J) V) i j,
  fold_left (fun a k => setrow a k (v k)) ks a (i, j) = if zmem i ks then v i j else a (i, j).
Proof.
  induction ks as [|k ks IH]; intros a i j; cbn [fold_left]; [reflexivity|]. rewrite IH. unfold setrow. cbn [fst snd zmem existsb].
  destruct (Z.eqb_spec i k) as [->|Hk]; cbn [orb]; [|unfold zmem; reflexivity]. fold (zmem k ks). destruct (zmem k ks); reflexivity.
Qed.
Lemma fold_pair {A B X} (f : A -> X -> A) (g : B -> X -> B) l : forall a b,
  fold_left (fun s x => (f (fst s) x, g (snd s) x)) l (a, b) = (fold_left f l a, fold_left g l b).
Proof. induction l as [|x l IH]; intros a b; cbn [fold_left fst snd]; [reflexivity|apply IH]. Qed.
Lemma fold_id {A X} (l : list X) (a : A) : fold_left (fun s _ => s) l a = a.
Proof. induction l as [|x l IH]; cbn; auto. Qed.
Lemma fold_left_ext' {A X} (f g : A -> X -> A) l : forall a, (forall a x, In x l -> f a x = g a x) -> fold_left f l a = fold_left g l a.
Proof.
  induction l as [|x l IH]; intros a H; cbn [fold_left]; [reflexivity|]. rewrite H by (left; reflexivity). apply IH.
  intros b y Hy. apply H. right. exact Hy.
Qed.

Lemma rd_z {A} (l : list A) i x : 0 <= i -> nth_error l (Z.to_nat i) = Some x -> rd l i = Ok x.
Proof. intros Hi H. unfold rd. replace (i <? 0) with false by lia. rewrite H. reflexivity. Qed.

(** ** Collective sums *)
Section Coll.
  Context {V : Type} {SV : Scalar V} (VL : ScalarLaws V).
  Add Ring Vr : (s_ring V VL).
  Lemma esum_one (x : V) : esum [x] = x.
  Proof. cbn. ring. Qed.
  Lemma sum_group i (x : V) gs : NoDup (concat gs) -> In i (concat gs) ->
    esum (map (fun ks => if zmem i ks then x else s0) gs) = x.
  Proof.
    induction gs as [|g gs IH]; intros Hnd Hin; cbn [concat map] in *; [destruct Hin|].
    rewrite esum_cons. destruct (zmem i g) eqn:Hg.
    - apply zmem_In in Hg. rewrite (esum_zero VL); [ring|]. intros y Hy. apply in_map_iff in Hy. destruct Hy as (ks & <- & Hks).
      destruct (zmem i ks) eqn:Hi; [|reflexivity]. exfalso. apply zmem_In in Hi.
      assert (Hc : In i (concat gs)) by (apply in_concat; exists ks; auto). clear - Hnd Hg Hc.
      induction g as [|y g IHg]; [destruct Hg|]. cbn [app] in Hnd. inversion Hnd as [|? ? Hn Hnd']; subst.
      destruct Hg as [->|Hg]; [apply Hn, in_or_app; right; exact Hc|exact (IHg Hnd' Hg)].
    - apply zmem_false in Hg. apply in_app_or in Hin. destruct Hin as [Hin|Hin]; [contradiction|]. rewrite IH; [ring| |exact Hin].
      clear - Hnd. induction g as [|y g IHg]; [exact Hnd|]. apply IHg. inversion Hnd; assumption.
  Qed.
  Lemma sum_groups {A} (h : A -> V) (gs : list (list A)) : esum (map (fun ks => esum (map h ks)) gs) = esum (map h (concat gs)).
  Proof. induction gs as [|g gs IH]; cbn [map concat]; [reflexivity|]. rewrite map_app, (esum_app VL), esum_cons, IH. reflexivity. Qed.
  Lemma all_reduce_at {I} mpi (l : list (arr I V)) a : mpi = true \/ length l = 1%nat -> In a (all_reduce mpi l) ->
    forall i, a i = total_arr l i.
  Proof.
    unfold all_reduce. intros H Ha i. destruct mpi.
    - apply in_map_iff in Ha. destruct Ha as (_ & <- & _). reflexivity.
    - destruct H as [H|H]; [discriminate|]. destruct l as [|b [|c l]]; try discriminate. destruct Ha as [<-|[]].
      unfold total_arr. cbn [map]. rewrite esum_one. reflexivity.
  Qed.
  Lemma length_all_reduce {I} mpi (l : list (arr I V)) : length (all_reduce mpi l) = length l.
  Proof. unfold all_reduce. destruct mpi; [apply map_length|reflexivity]. Qed.
  (** Rows computed by different ranks, summed. *)
  Lemma collect {J} (v : Z -> J -> V) n gs i j : cuts (zrange n) gs -> 0 <= i < Z.of_nat n ->
    total_arr (map (fun ks => fold_left (fun a k => setrow a k (v k)) ks zeros) gs) (i, j) = v i j.
  Proof.
    intros Hc Hi. unfold total_arr. rewrite map_map. rewrite (map_ext _ (fun ks => if zmem i ks then v i j else s0)).
    - apply sum_group; rewrite Hc; [apply NoDup_zrange|apply In_zrange, Hi].
    - intros ks. rewrite fill_at. reflexivity.
  Qed.
End Coll.

Lemma In_combine_zip {A B} (l : list A) (l' : list B) a b : In (a, b) (combine l l') -> In a l /\ In b l'.
Proof. intros H. split; [apply in_combine_l in H|apply in_combine_r in H]; exact H. Qed.

(** ** Rows *)
Section Rows.
  Context {E T : Type} {SE : Scalar E} {ST : Scalar T} (TL : ScalarLaws T).
  Context (solve : vec T -> res (list T * list (list E))) (order : list T -> list Z) (absq : E -> T).
  Add Ring Tr0 : (s_ring T TL).
  (** One row. *)
  Lemma as_row_ok {V} (d : V) n l : Z.of_nat (length l) = n -> as_row d n l = Ok (fun j => nth (Z.to_nat j) l d).
  Proof. intros H. unfold as_row. rewrite H, Z.eqb_refl. reflexivity. Qed.
  Lemma proj_one o st : (forall x, In x o -> 0 <= x < Z.of_nat (length st)) -> forall acc,
    loop (fun acc io => match py_nth st io with Some x => Ok (sadd acc (absq x)) | None => Err IndexError end) o acc =
    Ok (sadd acc (weight absq st o)).
  Proof.
    intros H. unfold weight. induction o as [|x o IH]; intros acc; cbn [map].
    - rewrite loop_nil, esum_nil. f_equal. ring.
    - rewrite loop_cons. pose proof (H x (or_introl eq_refl)) as Hx. unfold py_nth, py_norm.
      replace ((0 <=? x) && (x <? Z.of_nat (length st))) with true by lia.
      rewrite (nth_error_nth' st s0) by lia. cbn [bind]. rewrite IH by (intros y Hy; apply H; right; exact Hy).
      rewrite esum_cons. f_equal. ring.
  Qed.
  Lemma calc_proj_ok o (sts : list (list E)) : (forall st, In st sts -> forall x, In x o -> 0 <= x < Z.of_nat (length st)) ->
    calc_proj absq o sts = Ok (map (fun st => weight absq st o) sts).
  Proof.
    intros H. unfold calc_proj. apply mapM_ok. intros st Hst. rewrite proj_one by (apply H; exact Hst). f_equal. ring.
  Qed.

  (** What the eigensolver returns for each k-point, and what is expected of
      it. *)
  Definition solved (kpts : list (vec T)) (nb : Z) (no : Z) (eig : nat -> list T) (vecs : nat -> list (list E)) : Prop :=
    forall i k, nth_error kpts i = Some k -> solve k = Ok (eig i, vecs i) /\ Z.of_nat (length (eig i)) = nb /\
      Z.of_nat (length (vecs i)) = nb /\ forall st, In st (vecs i) -> Z.of_nat (length st) = no.
  Definition ordered (l : list T) : Prop := Permutation (order l) (zrange (length l)).
  Lemma order_in l x : ordered l -> In x (order l) -> 0 <= x < Z.of_nat (length l).
  Proof. intros H Hx. apply In_zrange. apply (Permutation_in _ H Hx). Qed.
  Lemma order_len l : ordered l -> length (order l) = length l.
  Proof. intros H. rewrite (Permutation_length H), length_zrange. reflexivity. Qed.
  Lemma pick_rows {A} (l : list A) d idx : (forall x, In x idx -> 0 <= x < Z.of_nat (length l)) ->
    mapM (rd l) idx = Ok (map (fun x => nth (Z.to_nat x) l d) idx).
  Proof. intros H. apply mapM_ok. intros x Hx. apply rd_nth_d, H, Hx. Qed.
  Lemma nth_map_default {A B} (f : A -> B) l k d d' : (k < length l)%nat -> nth k (map f l) d = f (nth k l d').
  Proof. intros H. rewrite (nth_indep _ d (f d')) by (rewrite map_length; exact H). apply map_nth. Qed.
  Lemma band_rows_ok kpts nb no orbs eig vecs i : solved kpts nb no eig vecs -> (forall i, ordered (eig i)) ->
    (match orbs with Some o => forall x, In x o -> 0 <= x < no | None => True end) ->
    0 <= i < Z.of_nat (length kpts) -> exists r, band_rows solve order absq kpts nb orbs i = Ok r /\ forall j, 0 <= j < nb ->
      let m := Z.to_nat (nth (Z.to_nat j) (order (eig (Z.to_nat i))) 0) in
      fst r j = nth m (eig (Z.to_nat i)) s0 /\
      snd r j = match orbs with Some o => weight absq (nth m (vecs (Z.to_nat i)) []) o | None => s1 end.
  Proof.
    intros Hs Ho Horb Hi. destruct (nth_error kpts (Z.to_nat i)) as [k|] eqn:Hk; [|apply nth_error_None in Hk; lia].
    destruct (Hs _ _ Hk) as (Hsol & Hl & Hv & Hst). unfold M_par.band_rows.
    rewrite (rd_z _ _ _ (proj1 Hi) Hk). cbn [bind]. rewrite Hsol. cbn [bind fst snd].
    set (e := eig (Z.to_nat i)) in *. set (w := vecs (Z.to_nat i)) in *. set (idx := order e).
    assert (Hidx : length idx = length e) by (apply order_len, Ho).
    assert (Hin : forall x, In x idx -> 0 <= x < Z.of_nat (length e)) by (intros x; apply order_in, Ho).
    rewrite (pick_rows e s0 idx Hin). cbn [bind]. rewrite as_row_ok by (rewrite map_length, Hidx; exact Hl). cbn [bind].
    assert (He : forall j, 0 <= j < nb -> nth (Z.to_nat j) (map (fun x => nth (Z.to_nat x) e s0) idx) s0 =
       nth (Z.to_nat (nth (Z.to_nat j) idx 0)) e s0) by (intros j Hj; rewrite (nth_map_default (fun x => nth (Z.to_nat x) e s0) idx _ _ 0) by lia; reflexivity).
    destruct orbs as [o|].
    - rewrite calc_proj_ok by (intros st Hx x Hxo; rewrite (Hst st Hx); apply Horb, Hxo). cbn [bind].
      rewrite (pick_rows _ s0) by (intros x Hx; rewrite map_length; pose proof (Hin x Hx); lia). cbn [bind].
      rewrite as_row_ok by (rewrite map_length, Hidx; exact Hl). cbn [bind]. eexists. split; [reflexivity|].
      intros j Hj. cbn [fst snd]. split; [apply He, Hj|]. rewrite (nth_map_default _ _ _ _ 0) by lia.
      assert (Hm : In (nth (Z.to_nat j) idx 0) idx) by (apply nth_In; lia). apply Hin in Hm.
      rewrite (nth_map_default _ _ _ _ []) by lia. reflexivity.
    - eexists. split; [reflexivity|]. intros j Hj. cbn [fst snd]. split; [apply He, Hj|reflexivity].
  Qed.

  Lemma state_rows_ok kpts nb no eig vecs i : solved kpts nb no eig vecs -> 0 <= i < Z.of_nat (length kpts) ->
    exists r, state_rows solve kpts nb no i = Ok r /\ (forall j, fst r j = nth (Z.to_nat j) (eig (Z.to_nat i)) s0) /\
      forall j o, 0 <= j < nb -> snd r (j, o) = nth (Z.to_nat o) (nth (Z.to_nat j) (vecs (Z.to_nat i)) []) s0.
  Proof.
    intros Hs Hi. destruct (nth_error kpts (Z.to_nat i)) as [k|] eqn:Hk; [|apply nth_error_None in Hk; lia].
    destruct (Hs _ _ Hk) as (Hsol & Hl & Hv & Hst). unfold M_par.state_rows.
    rewrite (rd_z _ _ _ (proj1 Hi) Hk). cbn [bind]. rewrite Hsol. cbn [bind fst snd].
    rewrite as_row_ok by exact Hl. cbn [bind].
    rewrite (mapM_ok _ (fun st j => nth (Z.to_nat j) st s0)) by (intros st Hx; apply as_row_ok, Hst, Hx).
    cbn [bind]. rewrite map_length, Hv, Z.eqb_refl. eexists. split; [reflexivity|]. cbn [fst snd]. split; [reflexivity|].
    intros j o Hj. rewrite (nth_map_default _ _ _ _ []) by lia. reflexivity.
  Qed.
End Rows.

(** ** calc_bands *)
Section Diag.
  Context {E T : Type} {SE : Scalar E} {ST : Scalar T} (TL : ScalarLaws T) (EL : ScalarLaws E).
  Context (solve : vec T -> res (list T * list (list E))) (order : list T -> list Z) (absq : E -> T)
          (leb : T -> T -> bool) (inv : T -> T) (trunc : T -> Z).
  Add Ring Tr : (s_ring T TL).
  Notation band_rows := (band_rows solve order absq).
  Notation bands_local := (bands_local solve order absq).
  Notation calc_bands := (calc_bands solve order absq).
  Context (mpi : bool) (size : Z) (Hsize : 0 < size) (Hmpi : mpi = true \/ size = 1).

  Lemma locals_ok {B} (F : list Z -> res B) n : exists gs, length gs = Z.to_nat size /\ cuts (zrange n) gs /\
    mapM (fun r => bind (dist_range size r (Z.of_nat n)) F) (ranks size) = mapM F gs.
  Proof.
    destruct (dist_ranges size (Z.of_nat n) ltac:(lia) Hsize) as (gs & Hg & Hl & Hc & _). rewrite Nat2Z.id in Hc. exists gs.
    split; [exact Hl|]. split; [exact Hc|]. apply mapM_bind, Hg.
  Qed.
  Lemma groups_in n (gs : list (list Z)) ks k : cuts (zrange n) gs -> In ks gs -> In k ks -> 0 <= k < Z.of_nat n.
  Proof. intros Hc Hk Hi. apply In_zrange. rewrite <- Hc. apply in_concat. eauto. Qed.

  Lemma calc_bands_rows kpts nb orbs (v : Z -> (Z -> T) * (Z -> T)) :
    (forall i, 0 <= i < Z.of_nat (length kpts) -> band_rows kpts nb orbs i = Ok (v i)) ->
    exists out, calc_bands mpi size kpts nb orbs = Ok out /\ length out = Z.to_nat size /\
      forall b p, In (b, p) out -> forall i j, 0 <= i < Z.of_nat (length kpts) ->
        b (i, j) = fst (v i) j /\ p (i, j) = match orbs with Some _ => snd (v i) j | None => s1 end.
  Proof.
    intros Hv. unfold M_par.calc_bands, M_par.bands_local.
    set (F := fun ks => loop _ ks _). destruct (locals_ok F (length kpts)) as (gs & Hl & Hc & ->).
    set (p0 := match orbs with Some _ => zeros | None => fun _ : Z * Z => s1 end) in *.
    assert (HF : mapM F gs = Ok (map (fun ks => (fold_left (fun a k => setrow a k (fst (v k))) ks zeros,
       fold_left (fun a k => match orbs with Some _ => setrow a k (snd (v k)) | None => a end) ks p0)) gs)).
    { apply mapM_ok. intros ks Hks. unfold F.
      rewrite (loop_pure (band_rows kpts nb orbs) (fun s ik r => (setrow (fst s) ik (fst r),
                match orbs with Some _ => setrow (snd s) ik (snd r) | None => snd s end)) v).
      - f_equal. rewrite <- (fold_pair (fun a k => setrow a k (fst (v k))) (fun a k => match orbs with Some _ => setrow a k (snd (v k)) | None => a end)). reflexivity.
      - intros x Hx. apply Hv. apply (groups_in _ gs ks); assumption. }
    rewrite HF. cbn [bind]. rewrite !map_map. cbn [fst snd].
    set (B := map _ gs). set (Pm := map _ gs). assert (HB : length B = Z.to_nat size) by (unfold B; rewrite map_length; exact Hl).
    assert (HP : length Pm = Z.to_nat size) by (unfold Pm; rewrite map_length; exact Hl).
    assert (Hone : forall (l : list (arr (Z * Z) T)), length l = Z.to_nat size -> mpi = true \/ length l = 1%nat)
      by (intros l Hll; destruct Hmpi as [->| ->]; [left; reflexivity|right; exact Hll]).
    eexists. split; [reflexivity|]. split.
    - rewrite combine_length, (length_all_reduce), HB. destruct orbs; rewrite ?length_all_reduce, HP; lia.
    - intros b p Hbp i j Hi. apply In_combine_zip in Hbp. destruct Hbp as (Hb & Hp). split.
      + rewrite (all_reduce_at TL mpi B b (Hone B HB) Hb). apply (collect TL (fun k => fst (v k)) _ _ _ _ Hc Hi).
      + destruct orbs as [o|].
        * rewrite (all_reduce_at TL mpi Pm p (Hone Pm HP) Hp). apply (collect TL (fun k => snd (v k)) _ _ _ _ Hc Hi).
        * unfold Pm in Hp. apply in_map_iff in Hp. destruct Hp as (ks & <- & _). unfold p0. rewrite fold_id. reflexivity.
  Qed.
  Lemma calc_bands_all kpts nb orbs out : calc_bands mpi size kpts nb orbs = Ok out ->
    forall i, 0 <= i < Z.of_nat (length kpts) -> exists r, band_rows kpts nb orbs i = Ok r.
  Proof.
    unfold M_par.calc_bands, M_par.bands_local. set (F := fun ks => loop _ ks _).
    destruct (locals_ok F (length kpts)) as (gs & Hl & Hc & ->). intros H i Hi.
    destruct (mapM F gs) as [ls|] eqn:HF; [|discriminate].
    assert (Hin : In i (concat gs)) by (rewrite Hc; apply In_zrange, Hi). apply in_concat in Hin. destruct Hin as (ks & Hks & Hik).
    destruct (mapM_all _ _ _ HF ks Hks) as (s & Hs & _). unfold F in Hs.
    apply (loop_all (band_rows kpts nb orbs) (fun s ik r => (setrow (fst s) ik (fst r),
                match orbs with Some _ => setrow (snd s) ik (snd r) | None => snd s end)) _ _ _ Hs i Hik).
  Qed.

  (** ** calc_dos *)
  Notation dos_grid := (dos_grid leb inv trunc).
  Notation dos_local := (dos_local leb inv trunc).
  Notation calc_dos := (calc_dos solve order absq leb inv trunc).
  Lemma entries_ext nk nb (a b : arr (Z * Z) T) : (forall i j, 0 <= i < nk -> 0 <= j < nb -> a (i, j) = b (i, j)) -> M_par.entries nk nb a = M_par.entries nk nb b.
  Proof.
    intros H. unfold M_par.entries. rewrite !flat_map_concat_map. f_equal. apply map_ext_in. intros i Hi. apply In_zrange in Hi.
    apply map_ext_in. intros j Hj. apply In_zrange in Hj. apply H; lia.
  Qed.
  Lemma grid_ext nk nb (a b : arr (Z * Z) T) lo hi st : (forall i j, 0 <= i < nk -> 0 <= j < nb -> a (i, j) = b (i, j)) ->
    dos_grid nk nb a lo hi st = dos_grid nk nb b lo hi st.
  Proof. intros H. unfold M_par.dos_grid. rewrite (entries_ext nk nb a b H). reflexivity. Qed.
  Lemma fold_add {X} (h : X -> Z -> T) l : forall (d : arr Z T) g,
    fold_left (fun (d : arr Z T) x => fun g => sadd (d g) (h x g)) l d g = sadd (d g) (esum (map (fun x => h x g) l)).
  Proof.
    induction l as [|x l IH]; intros d g; cbn [fold_left map]; [rewrite esum_nil; ring|]. rewrite IH, esum_cons. ring.
  Qed.
  Lemma fold_add2 {X Y} (h : X -> Y -> Z -> T) (m : list Y) l : forall (d : arr Z T) g,
    fold_left (fun (d : arr Z T) x => fold_left (fun (d : arr Z T) y => fun g => sadd (d g) (h x y g)) m d) l d g =
    sadd (d g) (esum (map (fun x => esum (map (fun y => h x y g) m)) l)).
  Proof.
    induction l as [|x l IH]; intros d g; cbn [fold_left map]; [rewrite esum_nil; ring|]. rewrite IH, fold_add, esum_cons. ring.
  Qed.
  Lemma calc_dos_ok kpts nb orbs lo hi st f gs bps (level w : arr (Z * Z) T) en : let nk := Z.of_nat (length kpts) in 0 <= nb ->
    calc_bands mpi size kpts nb orbs = Ok bps -> length bps = Z.to_nat size ->
    (forall b p, In (b, p) bps -> forall i j, 0 <= i < nk -> 0 <= j < nb -> b (i, j) = level (i, j) /\ p (i, j) = w (i, j)) ->
    dos_grid nk nb level lo hi st = Ok en ->
    exists out, calc_dos mpi size kpts nb orbs lo hi st (Some f) gs = Ok out /\ length out = Z.to_nat size /\
      forall en' d, In (en', d) out -> en' = en /\ forall g, (g < length en)%nat ->
        d (Z.of_nat g) = density inv f (length kpts) (Z.to_nat nb) (fun i j => level (Z.of_nat i, Z.of_nat j))
          (fun i j => w (Z.of_nat i, Z.of_nat j)) gs (nth g en s0).
  Proof.
    intros nk Hnb Hb Hlen Heq Hgrid. unfold M_par.calc_dos. rewrite Hb. cbn [bind]. fold nk.
    destruct (dist_ranges size nk ltac:(lia) Hsize) as (ks & Hks & Hl & Hc & _).
    set (h := fun (bp : arr (Z * Z) T * arr (Z * Z) T) ik ib (g : Z) => smul (f (nth (Z.to_nat g) en s0) (fst bp (ik, ib))) (snd bp (ik, ib))).
    set (loc := fun q : list Z * (arr (Z * Z) T * arr (Z * Z) T) =>
      (en, fold_left (fun dos ik => fold_left (fun dos ib => fun g : Z => sadd (dos g) (h (snd q) ik ib g)) (zrange (Z.to_nat nb)) dos) (fst q) (@zeros Z T ST))).
    assert (HM : mapM (fun rb => dos_local size (fst rb) nk nb (snd rb) lo hi st (Some f)) (enum bps) = Ok (map loc (combine ks bps))).
    { apply mapM_Forall2, Forall2_of_nth.
      - unfold enum. rewrite combine_length, map_length, combine_length, length_zrange. lia.
      - intros k [r bp] y Hx Hy. rewrite nth_error_enum in Hx. destruct (nth_error bps k) as [bp'|] eqn:Hbp; [|discriminate].
        injection Hx as <- <-. rewrite nth_error_map in Hy. rewrite nth_error_combine, Hbp in Hy.
        destruct (nth_error ks k) as [kk|] eqn:Hkk; [|discriminate]. injection Hy as <-.
        unfold M_par.dos_local. cbn [fst snd]. destruct bp' as [b p]. cbn [fst snd].
        assert (Hin : In (b, p) bps) by (eapply nth_error_In; eassumption).
        rewrite (grid_ext nk nb b level) by (intros i j Hi Hj; apply (Heq b p Hin i j Hi Hj)). rewrite Hgrid. cbn [bind].
        apply mapM_inv in Hks. assert (Hr : nth_error (ranks size) k = Some (Z.of_nat k)).
        { unfold ranks. rewrite nth_error_zrange. assert (k < length bps)%nat by (apply nth_error_Some; congruence).
          replace (k <? Z.to_nat size)%nat with true by lia. reflexivity. }
        rewrite (Forall2_nth2 _ _ _ _ _ _ Hks Hr Hkk). reflexivity. }
    rewrite HM. cbn [bind]. rewrite !map_map. cbn [fst snd].
    match goal with |- context [all_reduce mpi ?x] => set (L := x) end.
    assert (HL : length L = Z.to_nat size) by (unfold L; rewrite map_length, combine_length; lia).
    eexists. split; [reflexivity|]. split.
    - rewrite combine_length, !map_length, length_all_reduce, HL, combine_length. lia.
    - intros en' d Hin. apply In_combine_zip in Hin. destruct Hin as (He & Hd). apply in_map_iff in He. destruct He as (q & <- & _).
      split; [reflexivity|]. intros g Hg. apply in_map_iff in Hd. destruct Hd as (a & <- & Ha).
      assert (Hone : mpi = true \/ length L = 1%nat) by (rewrite HL; destruct Hmpi as [->| ->]; [left; reflexivity|right; reflexivity]).
      rewrite (all_reduce_at TL mpi L a Hone Ha).
      unfold density. rewrite Z2Nat.id by lia. fold nk. f_equal. f_equal.
      unfold total_arr, L. rewrite map_map.
      transitivity (esum (map (fun kk => esum (map (fun ik => esum (map (fun ib => h (level, w) ik ib (Z.of_nat g)) (zrange (Z.to_nat nb)))) kk)) ks)).
      + transitivity (esum (map (fun q => esum (map (fun ik => esum (map (fun ib => h (snd q) ik ib (Z.of_nat g)) (zrange (Z.to_nat nb)))) (fst q))) (combine ks bps))).
        * f_equal. apply map_ext. intros q'. unfold loc. cbn [snd]. rewrite fold_add2. unfold zeros. ring.
        * assert (Hll : length ks = length bps) by lia. assert (Hk : forall kk, In kk ks -> forall i, In i kk -> 0 <= i < nk).
          { intros kk Hkk i Hi. assert (Hz : In i (zrange (Z.to_nat nk))) by (rewrite <- Hc; apply in_concat; eauto). apply In_zrange in Hz. lia. }
          clear - Hll Hk Heq. revert bps Hll Heq. induction ks as [|kk ks IH]; intros [|bp bps] Hll Heq; try discriminate; [reflexivity|].
          cbn [combine map fst snd]. rewrite !esum_cons. f_equal.
          -- f_equal. apply map_ext_in. intros i Hi. f_equal. apply map_ext_in. intros j Hj. apply In_zrange in Hj. unfold h. cbn [fst snd].
             destruct bp as [b p]. destruct (Heq b p (or_introl eq_refl) i j (Hk kk (or_introl eq_refl) i Hi) ltac:(lia)) as (Hb1 & Hp1).
             cbn [fst snd]. rewrite Hb1, Hp1. reflexivity.
          -- apply IH; [intros k2 Hk2; apply Hk; right; exact Hk2|cbn in Hll; lia|]. intros b p Hin. apply Heq. right. exact Hin.
      + rewrite (sum_groups TL), Hc. unfold zrange. rewrite map_map. unfold nk. rewrite Nat2Z.id. f_equal. apply map_ext. intros i. f_equal.
        rewrite map_map. apply map_ext. intros j. unfold h. cbn [fst snd]. rewrite Nat2Z.id. reflexivity.
  Qed.

  (** ** calc_states *)
  Notation state_rows := (state_rows solve).
  Notation calc_states := (calc_states solve).
  Lemma calc_states_rows kpts nb no (v : Z -> (Z -> T) * (Z * Z -> E)) :
    (forall i, 0 <= i < Z.of_nat (length kpts) -> state_rows kpts nb no i = Ok (v i)) ->
    exists gs, cuts (zrange (length kpts)) gs /\ mapM (fun r => dist_range size r (Z.of_nat (length kpts))) (ranks size) = Ok gs /\
      calc_states mpi size kpts nb no false = Ok (map (fun ks => (fold_left (fun a k => setrow a k (fst (v k))) ks zeros,
         fold_left (fun a k => setrow a k (snd (v k))) ks zeros)) gs) /\
    exists out, calc_states mpi size kpts nb no true = Ok out /\ length out = Z.to_nat size /\
      forall b s, In (b, s) out -> forall i, 0 <= i < Z.of_nat (length kpts) ->
        (forall j, b (i, j) = fst (v i) j) /\ forall jo, s (i, jo) = snd (v i) jo.
  Proof.
    intros Hv. destruct (dist_ranges size (Z.of_nat (length kpts)) ltac:(lia) Hsize) as (gs & Hg & Hl & Hc & _). rewrite Nat2Z.id in Hc.
    exists gs. split; [exact Hc|]. split; [exact Hg|].
    unfold M_par.calc_states, M_par.states_local. set (F := fun ks => loop _ ks _). rewrite (mapM_bind _ F _ _ Hg).
    assert (HF : mapM F gs = Ok (map (fun ks => (fold_left (fun a k => setrow a k (fst (v k))) ks zeros,
         fold_left (fun a k => setrow a k (snd (v k))) ks zeros)) gs)).
    { apply mapM_ok. intros ks Hks. unfold F.
      rewrite (loop_pure (state_rows kpts nb no) (fun s ik r => (setrow (fst s) ik (fst r), setrow (snd s) ik (snd r))) v).
      - f_equal. rewrite <- (fold_pair (fun a k => setrow a k (fst (v k))) (fun a k => setrow a k (snd (v k)))). reflexivity.
      - intros x Hx. apply Hv. apply (groups_in _ gs ks); assumption. }
    rewrite HF. cbn [bind]. split; [reflexivity|]. rewrite !map_map. cbn [fst snd].
    set (B := map _ gs). set (Pm := map _ gs). assert (HB : length B = Z.to_nat size) by (unfold B; rewrite map_length; exact Hl).
    assert (HP : length Pm = Z.to_nat size) by (unfold Pm; rewrite map_length; exact Hl).
    assert (Hone : mpi = true \/ Z.to_nat size = 1%nat) by (destruct Hmpi as [->| ->]; [left; reflexivity|right; reflexivity]).
    eexists. split; [reflexivity|]. split; [rewrite combine_length, !length_all_reduce, HB, HP; lia|].
    intros b s Hbs i Hi. apply In_combine_zip in Hbs. destruct Hbs as (Hb & Hs). split.
    - intros j. rewrite <- HB in Hone. rewrite (all_reduce_at TL mpi B b Hone Hb).
      apply (collect TL (fun k => fst (v k)) _ _ _ _ Hc Hi).
    - intros jo. rewrite <- HP in Hone. rewrite (all_reduce_at EL mpi Pm s Hone Hs).
      apply (collect EL (fun k => snd (v k)) _ _ _ _ Hc Hi).
  Qed.
  Lemma calc_states_all kpts nb no red out : calc_states mpi size kpts nb no red = Ok out ->
    forall i, 0 <= i < Z.of_nat (length kpts) -> exists r, state_rows kpts nb no i = Ok r.
  Proof.
    unfold M_par.calc_states, M_par.states_local. set (F := fun ks => loop _ ks _).
    destruct (locals_ok F (length kpts)) as (gs & Hl & Hc & ->). intros H i Hi.
    destruct (mapM F gs) as [ls|] eqn:HF; [|discriminate].
    assert (Hin : In i (concat gs)) by (rewrite Hc; apply In_zrange, Hi). apply in_concat in Hin. destruct Hin as (ks & Hks & Hik).
    destruct (mapM_all _ _ _ HF ks Hks) as (s & Hs & _). unfold F in Hs.
    apply (loop_all (state_rows kpts nb no) (fun s ik r => (setrow (fst s) ik (fst r), setrow (snd s) ik (snd r))) _ _ _ Hs i Hik).
  Qed.
End Diag.
