(** Property C91: pictures of fields, states, bands and phases. *)
From Coq Require Import Reals Lra String Permutation.
From Verif Require Import Prelude Vec Cx M_hop M_pc M_sync M_bloch M_inter M_index M_super M_sample M_par M_view M_field S_pc S_super S_reach S_bloch S_view S_sample S_field
  L_base L_hop L_pc2 L_super L_samp2 L_samp4 L_gersh L_lat2 L_lind3 L_view S_comp P_pc P_super P_view P_sample.
Local Open Scope R_scope.

(** ** Images *)
Lemma nth_rows2d {A} (d : A) b : forall a l r c, (r < a)%nat -> (c < b)%nat -> nth c (nth r (rows2d a b l) []) d = nth (r * b + c) l d.
Proof.
  induction a as [|a IH]; intros l r c Hr Hc; [lia|]. cbn [rows2d]. destruct r as [|r]; cbn [nth].
  - cbn [Nat.mul Nat.add]. rewrite <- (firstn_skipn b l) at 2. destruct (Nat.lt_ge_cases c (length l)) as [H|H].
    + symmetry. apply app_nth1. rewrite firstn_length. lia.
    + rewrite firstn_skipn. rewrite !nth_overflow; [reflexivity|lia|rewrite firstn_length; lia].
  - rewrite IH by lia. rewrite <- (firstn_skipn b l) at 2. destruct (Nat.lt_ge_cases b (length l)) as [H|H].
    + rewrite app_nth2; rewrite firstn_length, Nat.min_l by lia; [f_equal; lia|lia].
    + rewrite firstn_skipn. rewrite !nth_overflow; [reflexivity|lia|rewrite skipn_length; lia].
Qed.
Lemma length_rows2d {A} b : forall a (l : list A), length (rows2d a b l) = a.
Proof. induction a as [|a IH]; intros l; [reflexivity|]. cbn. f_equal. apply IH. Qed.
Lemma width_rows2d {A} b : forall a (l : list A), (a * b <= length l)%nat -> forall row, In row (rows2d a b l) -> length row = b.
Proof.
  induction a as [|a IH]; intros l H row Hr; [contradiction|]. cbn [rows2d] in Hr. cbn in H. destruct Hr as [<-|Hr]; [rewrite firstn_length; lia|].
  apply (IH (skipn b l)); [rewrite skipn_length; lia|exact Hr].
Qed.
Lemma nth_mesh (d : R * R) xs : forall ys r c, (r < length ys)%nat -> (c < length xs)%nat -> nth (r * length xs + c) (mesh xs ys) d = (nth c xs 0, nth r ys 0).
Proof.
  induction ys as [|y ys IH]; intros r c Hr Hc; [cbn in Hr; lia|]. change (mesh xs (y :: ys)) with (map (fun x => (x, y)) xs ++ mesh xs ys). destruct r as [|r].
  - cbn [Nat.mul Nat.add nth]. rewrite app_nth1 by (rewrite map_length; exact Hc). rewrite (nth_indep _ d (0, y)) by (rewrite map_length; exact Hc).
    exact (map_nth (fun x => (x, y)) xs 0 c).
  - rewrite app_nth2 by (rewrite map_length; cbn; lia). rewrite map_length. replace (S r * length xs + c - length xs)%nat with (r * length xs + c)%nat by (cbn; lia).
    cbn [length] in Hr. rewrite IH by lia. reflexivity.
Qed.
Lemma length_mesh (xs ys : list R) : length (mesh xs ys) = (length ys * length xs)%nat.
Proof. induction ys as [|y ys IH]; [reflexivity|]. change (mesh xs (y :: ys)) with (map (fun x => (x, y)) xs ++ mesh xs ys). etransitivity; [apply app_length|]. rewrite map_length. setoid_rewrite IH. cbn. lia. Qed.

Definition spot (a b : R) (n k : nat) : R := a + INR k * ((b - a) * / INR (n - 1)).
Lemma linspace_ok a b n : (0 <= n)%Z -> exists l, linspace Rinv a b n = Ok l /\ length l = Z.to_nat n /\ forall k, (k < Z.to_nat n)%nat -> nth k l 0 = spot a b (Z.to_nat n) k.
Proof.
  intros Hn. unfold linspace. destruct (Z.ltb_spec n 0) as [H|_]; [lia|]. eexists. split; [reflexivity|]. split; [rewrite map_length, length_zrange; reflexivity|].
  intros k Hk. unfold zrange. rewrite map_map. set (g := fun x : nat => _). rewrite (nth_indep _ 0 (g 0%nat)) by (rewrite map_length, seq_length; exact Hk).
  rewrite map_nth, seq_nth by exact Hk. unfold g, spot. cbn. rewrite <- INR_IZR_INZ. do 2 f_equal. rewrite INR_IZR_INZ. do 2 f_equal. f_equal. lia.
Qed.
Lemma npfold_min (l : list R) : l <> [] -> exists lo, npfold (tmin Rleb) l = Ok lo /\ In lo l /\ forall x, In x l -> lo <= x.
Proof.
  destruct l as [|a l]; [congruence|]. intros _. unfold npfold. eexists. split; [reflexivity|]. revert a. induction l as [|b l IH]; intros a; cbn [fold_left].
  - split; [left; reflexivity|]. intros x [<-|[]]. lra.
  - destruct (IH (tmin Rleb a b)) as (H1 & H2). assert (K : tmin Rleb a b = a /\ a <= b \/ tmin Rleb a b = b /\ b <= a). { unfold tmin, Rleb. destruct (Rle_dec b a); [right|left]; split; lra. }
    split; [destruct H1 as [H1|H1]; [rewrite <- H1; destruct K as [[-> _]|[-> _]]; [left|right; left]; reflexivity|right; right; exact H1]|].
    pose proof (H2 _ (or_introl eq_refl)) as H3. intros x [<-|[<-|Hx]]; [lra|lra|apply H2; right; exact Hx].
Qed.
Lemma npfold_max (l : list R) : l <> [] -> exists lo, npfold (tmax Rleb) l = Ok lo /\ In lo l /\ forall x, In x l -> x <= lo.
Proof.
  destruct l as [|a l]; [congruence|]. intros _. unfold npfold. eexists. split; [reflexivity|]. revert a. induction l as [|b l IH]; intros a; cbn [fold_left].
  - split; [left; reflexivity|]. intros x [<-|[]]. lra.
  - destruct (IH (tmax Rleb a b)) as (H1 & H2). assert (K : tmax Rleb a b = a /\ b <= a \/ tmax Rleb a b = b /\ a <= b). { unfold tmax, Rleb. destruct (Rle_dec a b); [right|left]; split; lra. }
    split; [destruct H1 as [H1|H1]; [rewrite <- H1; destruct K as [[-> _]|[-> _]]; [left|right; left]; reflexivity|right; right; exact H1]|].
    pose proof (H2 _ (or_introl eq_refl)) as H3. intros x [<-|[<-|Hx]]; [lra|lra|apply H2; right; exact Hx].
Qed.

Definition with_model (lines : option (list ((R * R) * (R * R)))) : list (draw R) := match lines with Some l => [Segs l] | None => [] end.
(** The image as a whole. *)
Lemma image_ok griddata lines x y z cm nx ny : x <> [] -> length y = length x -> length z = length x -> (0 <= nx)%Z -> (0 <= ny)%Z ->
  exists x0 x1 y0 y1 rows, plot_scalar Rinv Rleb griddata lines x y z false cm nx ny = Ok (with_model lines ++ [Image rows x0 x1 y0 y1]) /\
    bounds x x0 x1 /\ bounds y y0 y1 /\ length rows = Z.to_nat nx /\ (forall row, In row rows -> length row = Z.to_nat ny) /\
    forall r c r' c', (r < Z.to_nat nx)%nat -> (c < Z.to_nat ny)%nat -> (r' < Z.to_nat ny)%nat -> (c' < Z.to_nat nx)%nat -> (r * Z.to_nat ny + c = r' * Z.to_nat nx + c')%nat ->
      nth c (nth r rows []) None = griddata (combine x y) z (spot x0 x1 (Z.to_nat nx) c', spot y0 y1 (Z.to_nat ny) r').
Proof.
  intros Hx Hy Hz Hnx Hny. assert (Hy' : y <> []) by (destruct x, y; cbn in Hy; congruence || lia).
  destruct (npfold_min x Hx) as (x0 & E0 & I0 & B0), (npfold_max x Hx) as (x1 & E1 & I1 & B1), (npfold_min y Hy') as (y0 & E2 & I2 & B2), (npfold_max y Hy') as (y1 & E3 & I3 & B3).
  destruct (linspace_ok x0 x1 nx Hnx) as (xs & L1 & L2 & L3), (linspace_ok y0 y1 ny Hny) as (ys & K1 & K2 & K3).
  set (a := Z.to_nat nx) in *. set (b := Z.to_nat ny) in *.
  exists x0, x1, y0, y1, (rows2d a b (map (griddata (combine x y) z) (mesh xs ys))).
  assert (Lm : length (map (griddata (combine x y) z) (mesh xs ys)) = (a * b)%nat) by (rewrite map_length, length_mesh, L2, K2; lia).
  split.
  - unfold plot_scalar. rewrite Hy, Nat.eqb_refl. cbn [negb]. rewrite E0, E1, E2, E3. cbn [bind]. rewrite L1, K1. cbn [bind]. rewrite Hz, Nat.eqb_refl. unfold reshape. rewrite Lm.
    destruct (Z.ltb_spec nx 0); [lia|]. destruct (Z.ltb_spec ny 0); [lia|]. destruct (Z.eqb_spec (nx * ny) (Z.of_nat (a * b))) as [_|N]; [reflexivity|]. exfalso. apply N. unfold a, b. nia.
  - split; [split; [exact I0|split; [exact I1|intros u Hu; split; auto]]|]. split; [split; [exact I2|split; [exact I3|intros u Hu; split; auto]]|].
    split; [apply length_rows2d|]. split; [intros row; apply width_rows2d; lia|].
    intros r c r' c' Hr Hc Hr' Hc' E. rewrite nth_rows2d by assumption.
    assert (Hk : (r * b + c < length (mesh xs ys))%nat) by (rewrite length_mesh, L2, K2, E; nia).
    rewrite (nth_indep _ None (griddata (combine x y) z (0, 0))) by (rewrite map_length; exact Hk). rewrite map_nth. f_equal. rewrite E. rewrite <- L2. rewrite nth_mesh by lia. rewrite L2, K3, L3 by assumption. reflexivity.
Qed.

Lemma spot_inside a b n k : a <= b -> (k < n)%nat -> a + INR k * ((b - a) / INR n) <= spot a b n k <= a + INR (S k) * ((b - a) / INR n).
Proof.
  intros Hab Hk. unfold spot. destruct (Nat.eq_dec n 1) as [->|N].
  - assert (k = 0)%nat as -> by lia. cbn [INR]. replace (INR 1) with 1 by reflexivity. unfold Rdiv. rewrite Rinv_1. lra.
  - assert (Hn : INR (n - 1) = INR n - 1) by (rewrite minus_INR by lia; reflexivity). assert (Pn : 1 < INR n) by (apply lt_1_INR; lia). assert (Pk : INR k <= INR n - 1) by (rewrite <- Hn; apply le_INR; lia). pose proof (pos_INR k) as Pk0.
    rewrite Hn, S_INR. set (w := b - a). assert (Hw : 0 <= w) by (unfold w; lra). set (m := INR n) in *. set (q := INR k) in *.
    replace (q * (w * / (m - 1))) with (w * (q / (m - 1))) by (field; lra). replace (q * (w / m)) with (w * (q / m)) by (field; lra). replace ((q + 1) * (w / m)) with (w * ((q + 1) / m)) by (field; lra).
    assert (A : q / m <= q / (m - 1)). { apply Rmult_le_compat_l; [exact Pk0|]. apply Rinv_le_contravar; lra. }
    assert (B : q / (m - 1) <= (q + 1) / m). { apply (Rmult_le_reg_r (m * (m - 1))); [nra|]. replace (q / (m - 1) * (m * (m - 1))) with (q * m) by (field; lra). replace ((q + 1) / m * (m * (m - 1))) with ((q + 1) * (m - 1)) by (field; lra). nra. }
    split; apply Rplus_le_compat_l, Rmult_le_compat_l; assumption.
Qed.

(** A square image shows the interpolated field over the box of the data. *)
Theorem C91_image : forall griddata lines x y z cm n, x <> [] -> length y = length x -> length z = length x -> (1 <= n)%Z ->
  exists x0 x1 y0 y1 rows, plot_scalar Rinv Rleb griddata lines x y z false cm n n = Ok (with_model lines ++ [Image rows x0 x1 y0 y1]) /\
    bounds x x0 x1 /\ bounds y y0 y1 /\ shows x0 x1 y0 y1 rows (Z.to_nat n) (Z.to_nat n) (griddata (combine x y) z).
Proof.
  intros g lines x y z cm n Hx Hy Hz Hn. destruct (image_ok g lines x y z cm n n Hx Hy Hz ltac:(lia) ltac:(lia)) as (x0 & x1 & y0 & y1 & rows & E & Bx & By & L & W & V).
  exists x0, x1, y0, y1, rows. split; [exact E|]. split; [exact Bx|]. split; [exact By|]. split; [exact L|]. split; [exact W|].
  intros r c v Hr Hc <-. exists (spot x0 x1 (Z.to_nat n) c, spot y0 y1 (Z.to_nat n) r). split; [|apply V; auto; lia].
  split; cbn [fst snd]; apply spot_inside; auto.
  - destruct Bx as (I0 & _ & B). apply (B x0 I0).
  - destruct By as (I0 & _ & B). apply (B y0 I0).
Qed.
Print Assumptions C91_image.

(** Finding: with different numbers of points along x and y no picture of the
    field f(x, y) = x is right, whatever the data. *)
Theorem C91_image_refuted : forall griddata lines x y z cm nx ny, (forall p, griddata (combine x y) z p = Some (fst p)) ->
  x <> [] -> length y = length x -> length z = length x -> (2 <= nx)%Z -> (2 <= ny)%Z -> nx <> ny -> (exists a b, In a x /\ In b x /\ a < b) ->
  exists x0 x1 y0 y1 rows, plot_scalar Rinv Rleb griddata lines x y z false cm nx ny = Ok (with_model lines ++ [Image rows x0 x1 y0 y1]) /\
    bounds x x0 x1 /\ forall m n, ~ shows x0 x1 y0 y1 rows m n (griddata (combine x y) z).
Proof.
  intros g lines x y z cm nx ny Hg Hx Hy Hz Hnx Hny Hd (a & b & Ia & Ib & Hab). destruct (image_ok g lines x y z cm nx ny Hx Hy Hz ltac:(lia) ltac:(lia)) as (x0 & x1 & y0 & y1 & rows & E & Bx & By & L & W & V).
  exists x0, x1, y0, y1, rows. split; [exact E|]. split; [exact Bx|]. intros m n (L' & W' & S'). rewrite L in L'. subst m.
  assert (n = Z.to_nat ny) as ->. { destruct rows as [|row rows]; [cbn in L; lia|]. rewrite <- (W' row (or_introl eq_refl)). apply W. left. reflexivity. }
  assert (Hw : x0 < x1). { destruct Bx as (_ & _ & B). pose proof (B a Ia). pose proof (B b Ib). lra. }
  set (p := Z.to_nat nx) in *. set (q := Z.to_nat ny) in *. assert (Hp : (2 <= p)%nat) by (unfold p; lia). assert (Hq : (2 <= q)%nat) by (unfold q; lia). assert (Hpq : p <> q) by (unfold p, q; lia).
  assert (K : forall r c r' c', (r < p)%nat -> (c < q)%nat -> (r' < q)%nat -> (c' < p)%nat -> (r * q + c = r' * p + c')%nat -> x0 + INR c * ((x1 - x0) / INR q) <= spot x0 x1 p c' <= x0 + INR (S c) * ((x1 - x0) / INR q)).
  { intros r c r' c' H1 H2 H3 H4 H5. destruct (S' r c _ H1 H2 eq_refl) as (u & (Cx & _) & Hu). rewrite (V r c r' c' H1 H2 H3 H4 H5) in Hu. rewrite !Hg in Hu. injection Hu as Hu. cbn [fst] in Hu. rewrite Hu. exact Cx. }
  assert (Q : 1 < INR q) by (apply lt_1_INR; lia). assert (P : 1 < INR p) by (apply lt_1_INR; lia). assert (Pm : INR (p - 1) = INR p - 1) by (rewrite minus_INR by lia; reflexivity).
  assert (D : 0 < (x1 - x0) / INR q) by (apply Rdiv_lt_0_compat; lra).
  destruct (Nat.lt_ge_cases p q) as [Hlt|Hge].
  - (* row 0, column p shows the left edge *)
    specialize (K 0%nat p 1%nat 0%nat ltac:(lia) ltac:(lia) ltac:(lia) ltac:(lia) ltac:(lia)). unfold spot in K. cbn [INR] in K. pose proof (lt_0_INR p ltac:(lia)). nra.
  - destruct (Nat.eq_dec p (S q)) as [Ep|Np].
    + (* row 1, column 0 shows the right edge *)
      specialize (K 1%nat 0%nat 0%nat q ltac:(lia) ltac:(lia) ltac:(lia) ltac:(lia) ltac:(lia)). unfold spot in K. replace (p - 1)%nat with q in K by lia.
      replace (INR q * ((x1 - x0) * / INR q)) with (x1 - x0) in K by (field; lra). replace (INR 1) with 1 in K by reflexivity. assert ((x1 - x0) / INR q < x1 - x0). { apply (Rmult_lt_reg_r (INR q)); [lra|]. replace ((x1 - x0) / INR q * INR q) with (x1 - x0) by (field; lra). nra. } lra.
    + (* row 0, the last column *)
      specialize (K 0%nat (q - 1)%nat 0%nat (q - 1)%nat ltac:(lia) ltac:(lia) ltac:(lia) ltac:(lia) ltac:(lia)). unfold spot in K. rewrite Pm in K.
      assert (G : INR q + 2 <= INR p). { replace (INR q + 2) with (INR (q + 2)) by (rewrite plus_INR; reflexivity). apply le_INR. lia. }
      assert (N : 0 < INR (q - 1)) by (apply lt_0_INR; lia).
      assert (F : (x1 - x0) * / (INR p - 1) < (x1 - x0) / INR q). { unfold Rdiv. apply Rmult_lt_compat_l; [lra|]. apply Rinv_lt_contravar; nra. }
      nra.
Qed.
Print Assumptions C91_image_refuted.

(** ** Points, arrows and curves *)
Definition flat2 (v : R * R * R) : R * R := let '(x, y, _) := v in (x, y).
Lemma combine_map {A B C} (f : A -> B) (g : A -> C) l : combine (map f l) (map g l) = map (fun x => (f x, g x)) l.
Proof. induction l as [|x l IH]; [reflexivity|]. cbn. f_equal. exact IH. Qed.
(** A state drawn as points: one point for each orbital, at its place in the
    plane, coloured by the value of the state on this orbital; a state of another
    length is refused. *)
Theorem C91_wfc : forall griddata pos lines wfc nx ny,
  plot_wfc Rinv Rleb griddata pos lines wfc true true nx ny =
    (if (length pos =? length wfc)%nat then Ok (with_model lines ++ [Dots (map flat2 pos) (Some wfc)]) else Err ValueError) /\
  (length pos <> length wfc -> exists e, plot_wfc Rinv Rleb griddata pos lines wfc false true nx ny = Err e) /\
  (length pos = length wfc -> pos <> [] -> (1 <= nx)%Z ->
     exists x0 x1 y0 y1 rows, plot_wfc Rinv Rleb griddata pos lines wfc false true nx nx = Ok (with_model lines ++ [Image rows x0 x1 y0 y1]) /\
       bounds (map (fun v => fst (flat2 v)) pos) x0 x1 /\ bounds (map (fun v => snd (flat2 v)) pos) y0 y1 /\
       shows x0 x1 y0 y1 rows (Z.to_nat nx) (Z.to_nat nx) (griddata (map flat2 pos) wfc)).
Proof.
  intros g pos lines wfc nx ny. unfold plot_wfc.
  assert (F : combine (map (comp 0) pos) (map (comp 1) pos) = map flat2 pos) by (rewrite combine_map; apply map_ext; intros [[a b] c]; reflexivity).
  assert (F0 : map (comp 0) pos = map (fun v => fst (flat2 v)) pos) by (apply map_ext; intros [[a b] c]; reflexivity).
  assert (F1 : map (comp 1) pos = map (fun v => snd (flat2 v)) pos) by (apply map_ext; intros [[a b] c]; reflexivity).
  split; [|split].
  - unfold plot_scalar. rewrite !map_length, Nat.eqb_refl. cbn [negb]. destruct (length pos =? length wfc)%nat; [|reflexivity]. rewrite F. reflexivity.
  - intros H. unfold plot_scalar. rewrite !map_length, Nat.eqb_refl. cbn [negb].
    destruct (npfold (tmin Rleb) (map (comp 0) pos)); cbn [bind]; [|eexists; reflexivity]. destruct (npfold (tmax Rleb) (map (comp 0) pos)); cbn [bind]; [|eexists; reflexivity].
    destruct (npfold (tmin Rleb) (map (comp 1) pos)); cbn [bind]; [|eexists; reflexivity]. destruct (npfold (tmax Rleb) (map (comp 1) pos)); cbn [bind]; [|eexists; reflexivity].
    destruct (linspace _ _ _ nx); cbn [bind]; [|eexists; reflexivity]. destruct (linspace _ _ _ ny); cbn [bind]; [|eexists; reflexivity].
    destruct (Nat.eqb_spec (length pos) (length wfc)); [contradiction|eexists; reflexivity].
  - intros H Hp Hn. destruct (C91_image g lines (map (comp 0) pos) (map (comp 1) pos) wfc true nx) as (x0 & x1 & y0 & y1 & rows & E & Bx & By & Sh).
    + destruct pos; [contradiction|discriminate].
    + rewrite !map_length. reflexivity.
    + rewrite map_length. symmetry. exact H.
    + exact Hn.
    + rewrite F in Sh. rewrite F0 in Bx. rewrite F1 in By. exists x0, x1, y0, y1, rows. auto.
Qed.
Print Assumptions C91_wfc.

(** Arrows start at the data points, point along (u, v) and are coloured by
    their length. *)
Theorem C91_vector : forall lines x y u v, length y = length x -> length u = length x -> length v = length x ->
  exists l c, plot_vector sqrt lines x y u v true = Ok (with_model lines ++ [Quiver l (Some c)]) /\ length l = length x /\ length c = length x /\
    forall i, (i < length x)%nat -> nth i l ((0, 0), (0, 0)) = ((nth i x 0, nth i y 0), (nth i u 0, nth i v 0)) /\
      0 <= nth i c 0 /\ nth i c 0 ^ 2 = nth i u 0 ^ 2 + nth i v 0 ^ 2.
Proof.
  intros lines x y u v Hy Hu Hv. unfold plot_vector. rewrite Hy, Hu, Hv, !Nat.eqb_refl. cbn [andb].
  exists (combine (combine x y) (combine u v)). eexists. split; [reflexivity|]. split; [rewrite !combine_length; lia|]. split; [rewrite map_length, combine_length; lia|].
  intros i Hi. split; [rewrite !combine_nth by (rewrite ?combine_length; lia); reflexivity|].
  set (g := fun q : R * R => _). rewrite (nth_indep _ 0 (g (0, 0))) by (rewrite map_length, combine_length; lia). rewrite map_nth, combine_nth by lia. unfold g. cbn [fst snd smul sadd RScalar].
  split; [apply sqrt_pos|]. rewrite <- Rsqr_pow2, Rsqr_sqrt by nra. ring.
Qed.
Print Assumptions C91_vector.

Lemma column_ok (m : list (list R)) nb b : Forall (fun r => Z.of_nat (length r) = nb) m -> (0 <= b < nb)%Z -> exists c, column m b = Ok c /\ length c = length m /\ forall k, (k < length m)%nat -> nth k c 0 = nth (Z.to_nat b) (nth k m []) 0.
Proof.
  intros H Hb. induction H as [|r m Hr H (c & E & L & N)]; [exists []; split; [reflexivity|]; split; [reflexivity|]; cbn; lia|].
  exists (nth (Z.to_nat b) r 0 :: c). split; [|split; [cbn; lia|]].
  - unfold column in *. cbn [mapM]. assert (E' : rd r b = Ok (nth (Z.to_nat b) r 0)). { unfold rd. destruct (Z.ltb_spec b 0); [lia|]. cbn. rewrite (nth_error_nth' r 0) by lia. reflexivity. } rewrite E'. cbn [bind]. rewrite E. reflexivity.
  - intros [|k] Hk; [reflexivity|]. cbn. apply N. cbn in Hk. lia.
Qed.
Lemma nth_pick (m : list (list R)) b k : (k < length m)%nat -> nth k (map (fun r => nth b r 0) m) 0 = nth b (nth k m []) 0.
Proof. intros H. rewrite (nth_indep (map _ m) 0 (nth b [] 0)) by (rewrite map_length; exact H). exact (map_nth (fun r => nth b r 0) m [] k). Qed.
Lemma nth_map_zrange {A} (f : Z -> A) d n k : (k < n)%nat -> nth k (map f (zrange n)) d = f (Z.of_nat k).
Proof. intros H. unfold zrange. rewrite map_map. rewrite (nth_indep _ d (f (Z.of_nat 0))) by (rewrite map_length, seq_length; exact H). rewrite (map_nth (fun x => f (Z.of_nat x))), seq_nth by exact H. reflexivity. Qed.
(** One curve for each band, through the energies over the lengths of the path;
    vertical lines and labels at the chosen k-points. *)
Theorem C91_bands : forall k_len bands nb k_idx labels, k_len <> [] -> length bands = length k_len -> (0 <= nb)%Z -> Forall (fun r => Z.of_nat (length r) = nb) bands ->
  Forall (fun i => (0 <= i < Z.of_nat (length k_len))%Z) k_idx -> length labels = length k_idx ->
  exists curves k_max, plot_bands Rleb k_len bands nb k_idx labels =
      Ok (map Curve curves ++ map (fun i => VLine (nth (Z.to_nat i) k_len 0)) k_idx ++ [XLim 0 k_max; XTicks (map (fun i => nth (Z.to_nat i) k_len 0) k_idx) labels]) /\
    Z.of_nat (length curves) = nb /\ In k_max k_len /\ (forall x, In x k_len -> x <= k_max) /\
    forall b k, (0 <= b < nb)%Z -> (k < length k_len)%nat -> length (nth (Z.to_nat b) curves []) = length k_len /\
      nth k (nth (Z.to_nat b) curves []) (0, 0) = (nth k k_len 0, nth (Z.to_nat b) (nth k bands []) 0).
Proof.
  intros k_len bands nb k_idx labels Hk Hb Hn Hw Hi Hl. destruct (npfold_max k_len Hk) as (k_max & Em & Im & Bm).
  exists (map (fun b => combine k_len (map (fun r => nth (Z.to_nat b) r 0) bands)) (zrange (Z.to_nat nb))), k_max.
  assert (C : forall b, (0 <= b < nb)%Z -> column bands b = Ok (map (fun r => nth (Z.to_nat b) r 0) bands)).
  { intros b Hb'. destruct (column_ok bands nb b Hw Hb') as (c & E & L & N). rewrite E. f_equal. apply (nth_ext _ _ 0 0); [rewrite map_length; exact L|]. intros k K. rewrite N, nth_pick by lia. reflexivity. }
  split.
  - unfold plot_bands. rewrite (mapM_ok _ (fun b => Curve (combine k_len (map (fun r => nth (Z.to_nat b) r 0) bands)))).
    + cbn [bind]. rewrite (mapM_ok _ (fun i => nth (Z.to_nat i) k_len 0)).
      * cbn [bind]. rewrite Em. cbn [bind]. rewrite map_length, Hl, Nat.eqb_refl, map_map, map_map. reflexivity.
      * intros i Hin. rewrite Forall_forall in Hi. specialize (Hi i Hin). unfold py_nth, py_norm. destruct (Z.leb_spec 0 i); [|lia]. destruct (Z.ltb_spec i (Z.of_nat (length k_len))); [|lia]. cbn [andb]. rewrite (nth_error_nth' k_len 0) by lia. reflexivity.
    + intros b Hin. apply In_zrange in Hin. rewrite C by lia. cbn [bind]. rewrite map_length, Hb, Nat.eqb_refl. reflexivity.
  - split; [rewrite map_length, length_zrange; lia|]. split; [exact Im|]. split; [exact Bm|].
    intros b k Hb' Hk'. rewrite nth_map_zrange by lia. rewrite Z2Nat.id by lia. split; [etransitivity; [apply combine_length|]; rewrite map_length; lia|]. etransitivity; [apply combine_nth; rewrite map_length; lia|]. f_equal. apply nth_pick. lia.
Qed.
Print Assumptions C91_bands.

(** Phases: one set of points for each centre.  On a disc, phases that differ
    by whole turns are drawn at the same place. *)
Theorem C91_phases : forall kb phases nb sc polar, length phases = length kb -> (0 <= nb)%Z -> Forall (fun r => Z.of_nat (length r) = nb) phases ->
  exists sets, plot_phases kb phases nb sc polar = Ok (map (fun l => if sc then Dots l None else Curve l) sets) /\ Z.of_nat (length sets) = nb /\
    forall b k, (0 <= b < nb)%Z -> (k < length kb)%nat ->
      let t := nth (Z.to_nat b) (nth k phases []) 0 in let q := nth k (nth (Z.to_nat b) sets []) (0, 0) in
      length (nth (Z.to_nat b) sets []) = length kb /\
      if polar then polar_point q = (nth k kb 0 * cos t, nth k kb 0 * sin t) /\ forall m, polar_point (t + 2 * PI * IZR m, nth k kb 0) = polar_point q else q = (nth k kb 0, t).
Proof.
  intros kb phases nb sc polar Hb Hn Hw.
  exists (map (fun b => let c := map (fun r => nth (Z.to_nat b) r 0) phases in if polar then combine c kb else combine kb c) (zrange (Z.to_nat nb))).
  assert (C : forall b, (0 <= b < nb)%Z -> column phases b = Ok (map (fun r => nth (Z.to_nat b) r 0) phases)).
  { intros b Hb'. destruct (column_ok phases nb b Hw Hb') as (c & E & L & N). rewrite E. f_equal. apply (nth_ext _ _ 0 0); [rewrite map_length; exact L|]. intros k K. rewrite N, nth_pick by lia. reflexivity. }
  split; [|split].
  - unfold plot_phases. rewrite map_map. apply mapM_ok. intros b Hin. apply In_zrange in Hin. rewrite C by lia. cbn [bind]. rewrite map_length, Hb, Nat.eqb_refl. reflexivity.
  - rewrite map_length, length_zrange. lia.
  - intros b k Hb' Hk. cbv zeta. rewrite nth_map_zrange by lia. rewrite Z2Nat.id by lia.
    assert (N : nth k (map (fun r => nth (Z.to_nat b) r 0) phases) 0 = nth (Z.to_nat b) (nth k phases []) 0).
    { apply nth_pick. lia. }
    destruct polar; (split; [etransitivity; [apply combine_length|]; rewrite map_length; lia|]).
    2: { etransitivity; [apply combine_nth; rewrite map_length; lia|]. rewrite N. reflexivity. }
    match goal with |- polar_point ?q = _ /\ _ => replace q with (nth (Z.to_nat b) (nth k phases []) 0, nth k kb 0) end.
    2: { symmetry. etransitivity; [apply combine_nth; rewrite map_length; lia|]. rewrite N. reflexivity. }
    split; [reflexivity|]. intros m. unfold polar_point. cbn [fst snd]. rewrite cos_plus, sin_plus. pose proof (cos_int m) as Cm. pose proof (sin_int m) as Sm. unfold Ctau in Cm, Sm. rewrite Cm, Sm. f_equal; ring.
Qed.
Print Assumptions C91_phases.

(** ** Models under the data *)
Local Open Scope Z_scope.
(** Lines of a primitive cell: one for each pair of conjugate hopping terms,
    between the two orbitals as seen from above. *)
Theorem C91_cell :
  forall (E T W L : Type) (SE : Scalar E) (ST : Scalar T) (conj : E -> E) (zero : T), ScalarLaws T -> StarLaws conj ->
  forall (lat : mat T) (org : vec T) (os : list (op E T W L)) (s : cached E T W L), synced conj zero os s -> c_hop s <> [] ->
  forall tau : Z -> vec T, (forall i o, 0 <= i -> nth_error (orbs (c_pc s)) (Z.to_nat i) = Some o -> tau i = position o) ->
  exists l, cell_lines lat org s = Ok l /\
    forall keys, NoDup keys -> (forall R i j, In (R, (i, j)) keys <-> exists e, a_hop (abs conj (c_pc s)) R i j = Some e) ->
      exists half, Permutation l (map (hop_seen lat org (fun v : vec T => let '(x, y, _) := v in (x, y)) tau) half) /\ Permutation keys (half ++ map reverse half).
Proof.
  intros E T W L SE ST conj zero TL SL lat org os s Hs Hh tau Ht.
  destruct (C86_cell E T W L SE ST conj zero TL SL (fun _ => true) (fun _ => eq_refl) lat org os s Hs "ab" (fun v : vec T => let '(x, y, _) := v in (x, y))) with (tau := tau) (o := {| o_orbitals := false; o_cells := false; o_conj := false; o_arrows := false |}) as (cs & hops & shown & P & _ & _ & _ & Ln & K & _).
  { intros [[x y] z]. reflexivity. }
  { exact Ht. }
  cbn [o_arrows o_conj] in Ln, K. unfold plot_cell in P. change (view_dims "ab") with (Ok (0, 1, 2)) in P. cbn [bind o_orbitals o_cells o_conj o_arrows] in P. rewrite andb_false_r in P.
  destruct (num_hop (hop (c_pc s)) =? 0)%nat eqn:En.
  { exfalso. apply Nat.eqb_eq in En. apply Hh. destruct Hs as (_ & _ & _ & H). rewrite H, num_hop_length in *. apply length_zero_iff_nil. exact En. }
  destruct (cell_terms lat s) as [ts|] eqn:Ec; cbn [bind] in P; [|discriminate]. unfold plot_hops in P.
  destruct (mapM _ ts) as [ends|] eqn:Em; cbn [bind] in P; [|discriminate]. injection P as <-. cbn [lines app flat_map] in Ln. rewrite app_nil_r in Ln.
  exists hops. split.
  - unfold cell_lines. destruct (c_hop s) as [|c0 cl] eqn:Ech; [contradiction|]. rewrite <- Ech in *. rewrite Ec. cbn [bind]. rewrite <- Ln. clear Ln K Ec Ech. revert ends Em. unfold model_lines.
    induction ts as [|[[[i j] e] d] ts IH]; intros ends Em; cbn [mapM] in Em; [injection Em as <-; reflexivity|].
    cbn [hop_ends] in Em. destruct (aread (cell_pos lat org s) i) as [p|] eqn:Ep; cbn [bind] in Em; [|discriminate]. destruct (mapM _ ts) as [ys|] eqn:Ey; cbn [bind] in Em; [|discriminate]. injection Em as <-.
    cbn [map mapM fst snd]. rewrite Ep. cbn [bind]. rewrite (IH ys eq_refl). cbn [bind concat app map fst snd]. reflexivity.
  - intros keys N Hk. apply K; [exact N|]. intros R i j. rewrite Hk. split; intros (e & H); exists e; [split; [exact H|reflexivity]|apply H].
Qed.
Print Assumptions C91_cell.

(** Finding: a primitive cell without hopping terms cannot be drawn under the
    data, though its state can be computed. *)
Definition lone : cached Z Z Z Z :=
  let p := fst (run (fun e => e) 0 pc_empty [OpAddOrb [0; 0] 7 0]) in
  {| c_pc := p; c_horb := 0; c_hhop := 0; c_orb := map (fun o => (position o, energy o)) (orbs p); c_hop := flatten (hop p) |}.
Theorem C91_no_hopping_refuted :
  (forall (E T W L : Type) (ST : Scalar T) lat org (s : cached E T W L), c_hop s = [] -> cell_lines lat org s = Err IndexError) /\
  synced (fun e : Z => e) 0 [OpAddOrb [0; 0] 7 0] lone /\ c_hop lone = [] /\ cell_pos zlat (0, 0, 0) lone = [(0, 0, 0)].
Proof.
  split; [intros E T W L ST lat org s H; unfold cell_lines; rewrite H; reflexivity|]. split; [|split; reflexivity].
  repeat split; reflexivity.
Qed.
Print Assumptions C91_no_hopping_refuted.

(** Lines of a sample after any history: one for each hopping term, from the
    orbital of the bra along the displacement.  Float indices are refused. *)
Theorem C91_sample :
  forall (E T X L : Type) (SE : Scalar E) (ST : Scalar T)
         (conj : E -> E) (inj cis : T -> E) (inv : T -> T) (cabs : E -> T) (leb : T -> T -> bool) (mag half : T)
         (zero : X) (frac_of : X * X * X -> vec T) (L0 : L), (forall e, conj (conj e) = e) ->
  forall (h : heap E T) (args : list (arg E)) s1 (os : list (mop T)), built conj zero frac_of L0 h args s1 ->
  let s := mrun conj inj cis inv cabs leb mag half h s1 os in
  snd (init_hops conj h false s) = Ok tt ->
  exists pos q, m_pos (fst (init_orb_pos h false s)) = Some pos /\ m_rows (fst (init_hops conj h false s)) = Some q /\
    (snd q = Int64 -> exists l, snd (sample_model conj h s) = Ok (pos, l) /\
       Forall2 (fun (r : row E T) (b : (T * T) * (T * T)) => exists x y z dx dy dz, 0 <= r_i r /\ nth_error pos (Z.to_nat (r_i r)) = Some (x, y, z) /\ r_dr r = (dx, dy, dz) /\ b = ((x, y), (sadd x dx, sadd y dy))) (fst q) l) /\
    (snd q = Float64 -> fst q <> [] -> snd (sample_model conj h s) = Err IndexError).
Proof.
  intros E T X L SE ST conj inj cis inv cabs leb mag half zero frac_of L0 Hcc h args s1 os Hb s Hok.
  pose proof (built_fit2 conj Hcc zero frac_of L0 inj cis inv cabs leb mag half h args s1 os Hb) as F. fold s in F.
  destruct (fit_pos h false s F) as (Fp & Op & (pos & Ep)). 
  assert (Rw : m_rows (fst (init_orb_pos h false s)) = m_rows s /\ fresh_rows conj h (fst (init_orb_pos h false s)) = fresh_rows conj h s).
  { unfold init_orb_pos. destruct (m_pos s); [split; reflexivity|]. destruct (fresh_pos h s); split; reflexivity. }
  destruct Rw as (R1 & R2). set (s2 := fst (init_orb_pos h false s)) in *.
  assert (Hs : snd (init_hops conj h false s2) = Ok tt /\ m_rows (fst (init_hops conj h false s2)) = m_rows (fst (init_hops conj h false s)) /\ m_pos (fst (init_hops conj h false s2)) = m_pos s2).
  { unfold init_hops in *. rewrite R1, R2. destruct (m_rows s) eqn:Em; cbn [fst snd]; [rewrite R1, Em; auto|]. destruct (fresh_rows conj h s); cbn [fst snd] in *; [auto|discriminate]. }
  destruct Hs as (H1 & H2 & H3). destruct (fit_hops conj h false s2 Fp) as (Fh & Hq). destruct (Hq H1) as (q & Eq). rewrite H2 in Eq.
  exists pos, q. split; [exact Ep|]. split; [exact Eq|].
  assert (M : snd (sample_model conj h s) = bind (sample_lines pos q) (fun l => Ok (pos, l))).
  { unfold sample_model, seq2. fold s2. destruct (init_orb_pos h false s) as [t r] eqn:Ei. cbn [fst] in s2. cbn [snd] in Op. subst r. subst s2. destruct (init_hops conj h false t) as [t' r'] eqn:Eh. cbn [fst snd] in *. subst r'. cbn [bind].
    rewrite H3, Ep. cbn [got bind]. rewrite H2, Eq. reflexivity. }
  rewrite M. destruct F as (_ & _ & _ & F4 & _). destruct Fh as (_ & _ & _ & G4 & G5). rewrite H3 in G4. rewrite H2 in G5. specialize (G5 q Eq). destruct (G4 pos Ep) as (Lp & _).
  destruct q as [rows dt]. cbn [fst snd] in *. split.
  - intros ->. assert (K : exists l, model_lines pos (map (fun r => (r_i r, r_dr r)) rows) = Ok l /\
       Forall2 (fun (r : row E T) (b : (T * T) * (T * T)) => exists x y z dx dy dz, 0 <= r_i r /\ nth_error pos (Z.to_nat (r_i r)) = Some (x, y, z) /\ r_dr r = (dx, dy, dz) /\ b = ((x, y), (sadd x dx, sadd y dy))) rows l).
    { unfold inside in G5. clear M Eq H2. induction G5 as [|r rows (Hr & _) G5 IH]; [exists []; split; [reflexivity|constructor]|]. destruct IH as (l & El & Fl).
      assert (Hn : exists p, nth_error pos (Z.to_nat (r_i r)) = Some p). { destruct (nth_error pos (Z.to_nat (r_i r))) eqn:En; [eauto|]. apply nth_error_None in En. lia. }
      destruct Hn as ([[x y] z] & Hn). destruct (r_dr r) as [[dx dy] dz] eqn:Ed. exists (((x, y), (sadd x dx, sadd y dy)) :: l). split.
      - unfold model_lines in *. cbn [map mapM fst snd]. unfold aread at 1. destruct (Z.ltb_spec (r_i r) 0); [lia|]. rewrite Hn. cbn [bind]. rewrite El, Ed. reflexivity.
      - constructor; [|exact Fl]. exists x, y, z, dx, dy, dz. split; [lia|auto]. }
    destruct K as (l & El & Fl). exists l. split; [|exact Fl]. unfold sample_lines. cbn [fst snd]. rewrite El. reflexivity.
  - intros -> Hn. unfold sample_lines. cbn [fst snd]. destruct rows; [contradiction|reflexivity].
Qed.
Print Assumptions C91_sample.

(** The picture of a sample consists of the pictures of its supercells and of
    its inter-hoppings, and there is none if one of them fails. *)
Lemma dots_app {T} {ST : Scalar T} (a b : list (cmd T)) : dots (a ++ b) = dots a ++ dots b.
Proof. apply flat_map_app. Qed.
Lemma mapM_pics {A T} (f : A -> res (list (cmd T))) l : (exists cs, mapM f l = Ok cs /\ Forall2 (fun a c => f a = Ok c) l cs) \/ exists a e, In a l /\ f a = Err e /\ mapM f l = Err e.
Proof.
  induction l as [|a l IH]; [left; exists []; split; [reflexivity|constructor]|]. cbn [mapM]. destruct (f a) as [c|e] eqn:Ea; cbn [bind]; [|right; exists a, e; split; [left; reflexivity|auto]].
  destruct IH as [(cs & -> & F)|(b & e & Hb & Eb & ->)]; cbn [bind]; [left; exists (c :: cs); split; [reflexivity|constructor; assumption]|right; exists b, e; split; [right; exact Hb|auto]].
Qed.
Theorem C91_sample_plot :
  forall (E T : Type) (SE : Scalar E) (ST : Scalar T) (conj : E -> E) (big : E -> bool) (h : heap E T) (s : sample E T) (view : string) (o : options),
  match plot_sample conj big h s view o with
  | Ok cs => exists ps qs, cs = concat ps ++ concat qs /\
      Forall2 (fun i p => plot_super big conj (fst (h i)) view o = Ok p) (m_sc s) ps /\
      Forall2 (fun t q => let '(b, k, x) := t in plot_inter big (fst (h b)) (fst (h k)) x view (o_conj o) (o_arrows o) = Ok q) (m_hop s) qs /\
      dots cs = flat_map dots ps ++ flat_map dots qs /\ lines cs = flat_map lines ps ++ flat_map lines qs /\ arrows cs = flat_map arrows ps ++ flat_map arrows qs
  | Err e => (exists i, In i (m_sc s) /\ plot_super big conj (fst (h i)) view o = Err e) \/
      (exists b k x, In (b, k, x) (m_hop s) /\ plot_inter big (fst (h b)) (fst (h k)) x view (o_conj o) (o_arrows o) = Err e)
  end.
Proof.
  intros E T SE ST conj big h s view o. unfold plot_sample.
  destruct (mapM_pics (fun i => plot_super big conj (fst (h i)) view o) (m_sc s)) as [(ps & -> & Fp)|(i & e & Hi & Ei & ->)]; cbn [bind]; [|left; exists i; auto].
  destruct (mapM_pics (fun q : Z * Z * inter E => let '(b, k, x) := q in plot_inter big (fst (h b)) (fst (h k)) x view (o_conj o) (o_arrows o)) (m_hop s)) as [(qs & -> & Fq)|([[b k] x] & e & Hi & Ei & ->)]; cbn [bind]; [|right; exists b, k, x; auto].
  exists ps, qs. split; [reflexivity|]. split; [exact Fp|]. split. { clear - Fq. induction Fq as [|[[b k] x] q l l' H Fq IH]; constructor; [exact H|exact IH]. }
  assert (G : forall (B : Type) (f : cmd T -> list B) (ll : list (list (cmd T))), flat_map f (concat ll) = flat_map (flat_map f) ll).
  { intros B f ll. induction ll as [|a ll IH]; [reflexivity|]. cbn [concat flat_map]. rewrite flat_map_app, IH. reflexivity. }
  unfold dots, lines, arrows. rewrite !flat_map_app, !G. auto.
Qed.
Print Assumptions C91_sample_plot.

(** Four points of the field f(x, y) = x + 2 y on a 2 x 2 grid, and a field
    along x on 2 x 3 points which the image shows in the wrong places. *)
Local Open Scope R_scope.
Definition xs4 : list R := [0; 1; 0; 1].
Definition ys4 : list R := [0; 0; 1; 1].
Definition plane (_ : list (R * R)) (_ : list R) (p : R * R) : option R := Some (fst p + 2 * snd p).
Definition ramp (_ : list (R * R)) (_ : list R) (p : R * R) : option R := Some (fst p).
Example C91_image_example :
  plot_scalar Rinv Rleb plane None xs4 ys4 [0; 1; 2; 3] false true 2 2 = Ok [Image [[Some 0; Some 1]; [Some 2; Some 3]] 0 1 0 1] /\
  plot_scalar Rinv Rleb ramp None xs4 ys4 [0; 1; 0; 1] false true 2 3 = Ok [Image [[Some 0; Some 1; Some 0]; [Some 1; Some 0; Some 1]] 0 1 0 1].
Proof.
  assert (M : npfold (tmin Rleb) xs4 = Ok 0 /\ npfold (tmax Rleb) xs4 = Ok 1 /\ npfold (tmin Rleb) ys4 = Ok 0 /\ npfold (tmax Rleb) ys4 = Ok 1).
  { unfold npfold, xs4, ys4, tmin, tmax, Rleb. cbn [fold_left]. repeat split; f_equal; repeat (destruct (Rle_dec _ _); try lra). }
  destruct M as (M1 & M2 & M3 & M4). split; unfold plot_scalar; cbn [xs4 ys4 length Nat.eqb negb]; change [0; 1; 0; 1] with xs4; change [0; 0; 1; 1] with ys4; rewrite M1, M2, M3, M4; cbn [bind];
    cbn -[IZR Rinv reshape]; change (Pos.to_nat 2) with 2%nat; change (Pos.to_nat 3) with 3%nat; cbn -[IZR Rinv]; change (Pos.to_nat 2) with 2%nat; change (Pos.to_nat 3) with 3%nat; cbn -[IZR Rinv];
    repeat (f_equal; try (cbn; lra)).
  all: unfold plane, ramp; cbn [fst snd]; f_equal; lra.
Qed.
(** Two bands over three k-points; a centre that winds around the disc. *)
Example C91_curves_example :
  plot_bands Rleb [0; 1; 2] [[5; 6]; [7; 8]; [9; 10]] 2 [0; -1]%Z ["G"; "X"]%string = Ok [Curve [(0, 5); (1, 7); (2, 9)]; Curve [(0, 6); (1, 8); (2, 10)]; VLine 0; VLine 2; XLim 0 2; XTicks [0; 2] ["G"; "X"]%string] /\
  plot_phases [0; 1; 2] [[PI]; [- PI]; [3 * PI]] 1 true true = Ok [Dots [(PI, 0); (- PI, 1); (3 * PI, 2)] None] /\
  polar_point (- PI, 2) = (- (2), - (0)).
Proof.
  split; [|split].
  - unfold plot_bands. cbn -[IZR npfold tmax]. replace (npfold (tmax Rleb) [0; 1; 2]) with (Ok 2); [reflexivity|]. unfold npfold, tmax, Rleb. cbn [fold_left]. f_equal. repeat (destruct (Rle_dec _ _); try lra).
  - reflexivity.
  - unfold polar_point. cbn [fst snd]. rewrite cos_neg, sin_neg, cos_PI, sin_PI. f_equal; ring.
Qed.
(** Vectors (3, 4): colour 5. *)
Example C91_vector_example : plot_vector sqrt None [1] [2] [3] [4] true = Ok [Quiver [((1, 2), (3, 4))] (Some [5])].
Proof. unfold plot_vector. cbn [length Nat.eqb andb combine map fst snd app smul sadd RScalar]. do 4 f_equal. replace (3 * 3 + 4 * 4) with (Rsqr 5) by (unfold Rsqr; ring). f_equal. apply sqrt_Rsqr. lra. Qed.
(** The chain of C86 seen from above, and the sample of C23. *)
Example C91_model_example :
  cell_lines zlat (0, 0, 0)%Z zcell = Ok [((0, 0), (3, 0))]%Z /\
  match snd (sample_model qid heap1 sample1) with Ok (pos, l) => length pos = 9%nat /\ length l = 6%nat | Err _ => False end.
Proof. split; [reflexivity|]. vm_compute. split; reflexivity. Qed.

(** Input of wrong shape is refused: no image of nothing, no curve through
    more or fewer points than there are k-points, and no tick outside of the path. *)
Theorem C91_shapes_refused :
  (forall griddata lines z cm nx ny, plot_scalar Rinv Rleb griddata lines [] [] z false cm nx ny = Err ValueError) /\
  (forall k_len bands nb k_idx labels, (0 < nb)%Z -> Forall (fun r => Z.of_nat (length r) = nb) bands -> length bands <> length k_len ->
     plot_bands Rleb k_len bands nb k_idx labels = Err ValueError) /\
  (forall k_len bands nb i k_idx labels, (0 <= nb)%Z -> Forall (fun r => Z.of_nat (length r) = nb) bands -> length bands = length k_len ->
     (Z.of_nat (length k_len) <= i)%Z -> plot_bands Rleb k_len bands nb (i :: k_idx) labels = Err IndexError) /\
  (forall (kb : list R) (phases : list (list R)) nb sc polar, (0 < nb)%Z -> Forall (fun r => Z.of_nat (length r) = nb) phases -> length phases <> length kb ->
     plot_phases kb phases nb sc polar = Err ValueError).
Proof.
  assert (Z0 : forall nb, (0 < nb)%Z -> exists l, zrange (Z.to_nat nb) = 0%Z :: l).
  { intros nb H. unfold zrange. destruct (Z.to_nat nb) as [|k] eqn:Q; [lia|]. cbn [seq map]. eexists. reflexivity. }
  split; [reflexivity|]. split; [|split].
  - intros k_len bands nb k_idx labels Hn Hw Hl. destruct (column_ok bands nb 0 Hw ltac:(lia)) as (c & E & L & _). destruct (Z0 nb Hn) as (l & Q).
    unfold plot_bands. rewrite Q. cbn [mapM]. rewrite E. cbn [bind]. destruct (Nat.eqb_spec (length k_len) (length c)); [exfalso; congruence|]. reflexivity.
  - intros k_len bands nb i k_idx labels Hn Hw Hl Hi. unfold plot_bands.
    rewrite (mapM_ok _ (fun b => Curve (combine k_len (map (fun r => nth (Z.to_nat b) r 0) bands)))).
    + cbn [bind mapM]. unfold py_nth, py_norm. destruct (Z.leb_spec 0 i); [|lia]. destruct (Z.ltb_spec i (Z.of_nat (length k_len))); [lia|]. cbn [andb].
      destruct (Z.leb_spec (- Z.of_nat (length k_len)) i), (Z.ltb_spec i 0); try lia; reflexivity.
    + intros b Hb. apply In_zrange in Hb. destruct (column_ok bands nb b Hw ltac:(lia)) as (c & E & L & N). rewrite E. cbn [bind]. rewrite L, Hl, Nat.eqb_refl. do 3 f_equal.
      apply (nth_ext _ _ 0 0); [rewrite map_length; exact L|]. intros k K. rewrite N, nth_pick by lia. reflexivity.
  - intros kb phases nb sc polar Hn Hw Hl. destruct (column_ok phases nb 0 Hw ltac:(lia)) as (c & E & L & _). destruct (Z0 nb Hn) as (l & Q).
    unfold plot_phases. rewrite Q. cbn [mapM]. rewrite E. cbn [bind]. destruct (Nat.eqb_spec (length kb) (length c)); [exfalso; congruence|]. reflexivity.
Qed.
Print Assumptions C91_shapes_refused.

(** Two k-points, one row of energies; one row more than k-points; a tick at
    the third of two k-points. *)
Example C91_shapes_example :
  plot_bands Rleb [0; 1] [[3]] 1 [0%Z; 1%Z] ["G"%string; "M"%string] = Err ValueError /\
  plot_phases [0; 1] [[3; 4]; [5; 6]; [7; 8]] 2 true false = Err ValueError /\
  plot_bands Rleb [0; 1] [[3]; [4]] 1 [2%Z] ["G"%string] = Err IndexError.
Proof. repeat split; reflexivity. Qed.
