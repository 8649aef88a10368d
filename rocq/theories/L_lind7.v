(** AC conductivity. *)
From Verif Require Import Prelude Vec Cx M_super M_sample M_hop M_pc M_sync M_build M_bloch M_par M_lat M_lind
  S_lat S_par S_lind L_base L_super L_sample L_samp2 L_csr L_par L_par2 L_gersh L_lat L_lat2 L_lat3 L_lind L_lind2 L_lind3 L_lind4 L_lind5 L_lind6.
From Coq Require Import Reals Permutation Lra.
Local Open Scope R_scope.
Add Ring Cr6 : (s_ring Cplx CLaws).

Definition tol7 : R := / 10 ^ 7.
Definition ac_prod (no : nat) (v : Z -> Z -> Cplx) (u' u : Z -> Cplx) : Cplx :=
  sum_to no (fun a => sum_to no (fun b => Cmul (Cmul (Cconj (u' (Z.of_nat a))) (v (Z.of_nat a) (Z.of_nat b))) (u (Z.of_nat b)))).
Definition ac_val (no : nat) (beta mu : R) (v1 v2 : Z -> Z -> Cplx) (ek : Z -> R) (sk : Z -> Z -> Cplx) (mm nn : Z) : Cplx :=
  Cdiv (Cmul (Cmul (ac_prod no v1 (sk nn) (sk mm)) (ac_prod no v2 (sk mm) (sk nn))) (Cre (occ beta mu (ek mm) - occ beta mu (ek nn)))) (Cre (ek mm - ek nn)).
Lemma fold_two {X Y} (f g : X -> Y -> Cplx) (m : list Y) (l : list X) : forall w : Cplx * Cplx,
  fold_left (fun p x => fold_left (fun p y => (Cadd (fst p) (f x y), Cadd (snd p) (g x y))) m p) l w =
  (Cadd (fst w) (esum (map (fun x => esum (map (f x) m)) l)), Cadd (snd w) (esum (map (fun x => esum (map (g x) m)) l))).
Proof.
  intros w. rewrite (fold_pair2 (fun a x y => Cadd a (f x y)) (fun b x y => Cadd b (g x y))). f_equal.
  - rewrite (fold_ext _ (fun a x => Cadd a (esum (map (f x) m)))) by (intros; apply fold_cadd). apply fold_cadd.
  - rewrite (fold_ext _ (fun a x => Cadd a (esum (map (g x) m)))) by (intros; apply fold_cadd). apply fold_cadd.
Qed.
Lemma ac_prods no (v1 v2 : Z -> Z -> Cplx) (sk : Z -> Z -> Cplx) mm nn :
  fold_left (fun p ib1 => fold_left (fun p ib2 =>
        (Cadd (fst p) (Cmul (Cmul (Cconj (sk nn ib1)) (v1 ib1 ib2)) (sk mm ib2)),
         Cadd (snd p) (Cmul (Cmul (Cconj (sk mm ib1)) (v2 ib1 ib2)) (sk nn ib2)))) (zrange no) p) (zrange no) ((0, 0), (0, 0)) =
  (ac_prod no v1 (sk nn) (sk mm), ac_prod no v2 (sk mm) (sk nn)).
Proof.
  rewrite (fold_two (fun ib1 ib2 => Cmul (Cmul (Cconj (sk nn ib1)) (v1 ib1 ib2)) (sk mm ib2)) (fun ib1 ib2 => Cmul (Cmul (Cconj (sk mm ib1)) (v2 ib1 ib2)) (sk nn ib2))).
  cbn [fst snd]. assert (Z0 : forall z, Cadd (0, 0) z = z) by (intros; ceq; ring). rewrite !Z0. f_equal; rewrite sum_zrange; apply sum_to_ext; intros a Ha; apply sum_zrange.
Qed.
Lemma ac_rows_at no beta mu v1 v2 ik ek sk w x jl :
  fst (ac_rows no beta mu v1 v2 ik ek sk w) (x, jl) = (if (x =? ik)%Z && ins no jl then ek (fst jl) - ek (snd jl) else fst w (x, jl)) /\
  snd (ac_rows no beta mu v1 v2 ik ek sk w) (x, jl) =
    (if (x =? ik)%Z && (ins no jl && Rleb tol7 (Rabs (ek (fst jl) - ek (snd jl)))) then ac_val no beta mu v1 v2 ek sk (fst jl) (snd jl) else snd w (x, jl)).
Proof.
  destruct jl as [j l]. cbn [fst snd]. unfold ac_rows.
  pose proof (fold_pair2 (fun (a : arr (Z * (Z * Z)) R) jj ll => if true then set3 a ik jj ll (ek jj - ek ll) else a)
                 (fun (b : arr (Z * (Z * Z)) Cplx) jj ll => if Rleb tol7 (Rabs (ek jj - ek ll)) then set3 b ik jj ll (ac_val no beta mu v1 v2 ek sk jj ll) else b) (zrange no) (zrange no) w) as H.
  cbv beta iota in H.
  match type of H with ?y = _ => match goal with |- fst ?z _ = _ /\ _ => replace z with y end end.
  2: { apply fold_ext. intros a jj. apply fold_ext. intros b ll. rewrite ac_prods. reflexivity. }
  rewrite H. clear H. cbn [fst snd]. unfold ins. cbn [fst snd]. rewrite <- !zmem_zrange. split.
  - rewrite (set_grid (fun _ _ => true) (fun jj ll => ek jj - ek ll)). rewrite andb_true_r, andb_assoc. reflexivity.
  - rewrite (set_grid (fun jj ll => Rleb tol7 (Rabs (ek jj - ek ll))) (fun jj ll => ac_val no beta mu v1 v2 ek sk jj ll)). rewrite !andb_assoc. reflexivity.
Qed.
Lemma prod_ac_at no bands states hops kmesh beta mu c1 c2 ks (kf : Z -> V) : (forall k, In k ks -> rd kmesh k = Ok (kf k)) ->
  exists w, prod_ac no bands states hops kmesh beta mu c1 c2 ks (zeros, zeros) = Ok w /\
    two_at no ks (fun x jl => bands (x, fst jl) - bands (x, snd jl))
      (fun x jl => if Rleb tol7 (Rabs (bands (x, fst jl) - bands (x, snd jl)))
         then ac_val no beta mu (vel_mat hops (kf x) c1) (vel_mat hops (kf x) c2) (fun j => bands (x, j)) (fun j b => states (x, (j, b))) (fst jl) (snd jl)
         else Cre 0) (zeros, zeros) w.
Proof.
  intros H. unfold prod_ac. rewrite (loop_fold (rd kmesh) (fun w ik k => ac_rows no beta mu (vel_mat hops k c1) (vel_mat hops k c2) ik (fun j => bands (ik, j)) (fun j b => states (ik, (j, b))) w) kf) by exact H.
  eexists. split; [reflexivity|]. intros x jl. split.
  - apply (fold_rows fst _ (fun x jl => bands (x, fst jl) - bands (x, snd jl)) (fun _ => ins no)). intros w ik y jl'. apply ac_rows_at.
  - rewrite (fold_rows snd _ (fun x jl => ac_val no beta mu (vel_mat hops (kf x) c1) (vel_mat hops (kf x) c2) (fun j => bands (x, j)) (fun j b => states (x, (j, b))) (fst jl) (snd jl))
      (fun ik jl => ins no jl && Rleb tol7 (Rabs (bands (ik, fst jl) - bands (ik, snd jl))))).
    + cbn [snd]. destruct (zmem x ks); cbn [andb]; [|reflexivity]. destruct (ins no jl); cbn [andb]; [|reflexivity]. destruct (Rleb _ _); reflexivity.
    + intros w ik y jl'. apply ac_rows_at.
Qed.
Lemma ac_kernel_at no w omegas delta ks ac iw :
  ac_cond_kernel no w omegas delta ks ac iw =
  if inr (length omegas) iw
  then ksum no w (fun e => Csub (Cre (e - nth (Z.to_nat iw) omegas 0)) (Cmul Ci (Cre delta))) ks else ac iw.
Proof.
  unfold ac_cond_kernel.
  assert (H : forall om k (ac : arr Z Cplx), fold_left (fun ac (x : Z * R) =>
    let s := ksum no w (fun e => Csub (Cre (e - snd x)) (Cmul Ci (Cre delta))) ks in
    fun i => if (i =? fst x)%Z then s else ac i) (combine (map (fun j => Z.of_nat (k + j)) (seq 0 (length om))) om) ac iw =
    if ((Z.of_nat k <=? iw) && (iw <? Z.of_nat (k + length om)))%Z
    then ksum no w (fun e => Csub (Cre (e - nth (Z.to_nat iw - k) om 0)) (Cmul Ci (Cre delta))) ks else ac iw).
  { clear ac. induction om as [|o om IH]; intros k ac; cbn [length seq map combine fold_left].
    - replace ((Z.of_nat k <=? iw) && (iw <? Z.of_nat (k + 0)))%Z with false by lia. reflexivity.
    - rewrite <- seq_shift, map_map. rewrite (map_ext _ (fun j => Z.of_nat (S k + j))) by (intros; f_equal; lia). rewrite IH. cbn [fst snd].
      destruct (Z.eqb_spec iw (Z.of_nat (k + 0))) as [->|Hw].
      + replace ((Z.of_nat (S k) <=? Z.of_nat (k + 0)) && (Z.of_nat (k + 0) <? Z.of_nat (S k + length om)))%Z with false by lia.
        replace ((Z.of_nat k <=? Z.of_nat (k + 0)) && (Z.of_nat (k + 0) <? Z.of_nat (k + S (length om))))%Z with true by lia.
        replace (Z.to_nat (Z.of_nat (k + 0)) - k)%nat with 0%nat by lia. reflexivity.
      + destruct ((Z.of_nat (S k) <=? iw) && (iw <? Z.of_nat (S k + length om)))%Z eqn:Hc.
        * replace ((Z.of_nat k <=? iw) && (iw <? Z.of_nat (k + S (length om))))%Z with true by lia.
          replace (Z.to_nat iw - k)%nat with (S (Z.to_nat iw - S k))%nat by lia. reflexivity.
        * replace ((Z.of_nat k <=? iw) && (iw <? Z.of_nat (k + S (length om))))%Z with false by lia. reflexivity. }
  refine (eq_trans (H omegas 0%nat ac) _). clear H. cbn [Nat.add]. unfold inr. rewrite Nat.sub_0_r. reflexivity.
Qed.

Lemma ac_prod_melem no v (u' u : Z -> Cplx) f' f : (forall b, (b < no)%nat -> u' (Z.of_nat b) = f' b) -> (forall b, (b < no)%nat -> u (Z.of_nat b) = f b) ->
  ac_prod no v u' u = melem no (fun a b => v (Z.of_nat a) (Z.of_nat b)) f' f.
Proof. intros h1 h2. unfold ac_prod, melem. apply sum_to_ext. intros a Ha. apply sum_to_ext. intros b Hb. rewrite h1, h2 by assumption. reflexivity. Qed.

Lemma fracs_of {L} (l : @lind L) (ks : list Z3) : grid2frac l ks = map (frac_of (l_size l)) ks.
Proof. unfold grid2frac. destruct (l_size l) as [[na nb] nc]. apply map_ext. intros [[x y] z]. reflexivity. Qed.

Section AC.
  Context {L : Type} (l : @lind L).
  Context (solve : Z -> V -> res (list R * list (list Cplx))).
  Context (mpi : bool) (size : Z) (Hsize : (0 < size)%Z) (Hmpi : mpi = true \/ size = 1%Z).
  Let no := n_orb (l_cell l).
  Let n := l_size l.
  Context (P : sizes_pos n) (Hgrid : l_grid l = meshl n).
  Context (a0 a1 a2 b0 b1 b2 : V) (Hlat : g_lat (l_cell l) = (a0, a1, a2)) (Ind : independent a0 a1 a2) (HD : dual a0 a1 a2 b0 b1 b2).
  Context (Hdim : l_dim l = 3%Z \/ l_dim l = 2%Z) (Hext : g_ext (l_cell l) <> 0).
  Context (hops : list hopping) (Hhops : cell_hops (l_cell l) = Ok hops).
  Context (En : V -> nat -> R) (Un : V -> nat -> nat -> Cplx).
  Context (Hk : forall k, on_mesh n k -> diag (solve 1%Z) no (frac_of n k) (En (frac_of n k)) (Un (frac_of n k))).
  Let nk := length (meshl n).
  Let kat (i : Z) : Z3 := nth (Z.to_nat i) (meshl n) (0, 0, 0)%Z.
  Let cart (k : Z3) : V := affine b0 b1 b2 (0, 0, 0) (frac_of n k).
  Definition cell_size : R := if (l_dim l =? 2)%Z then area a0 a1 else volume a0 a1 a2.
  Definition sig (c1 c2 : Z) (w : R) : Cplx :=
    kubo no (l_beta l) (l_mu l) (l_delta l) tol7 (meshl n)
      (fun k a b => vel_mat hops (cart k) c1 (Z.of_nat a) (Z.of_nat b)) (fun k a b => vel_mat hops (cart k) c2 (Z.of_nat a) (Z.of_nat b))
      (fun k => En (frac_of n k)) (fun k => Un (frac_of n k)) w.
  Lemma ac_diag m k : nth_error (map (frac_of n) (meshl n)) m = Some k ->
    diag (solve 1%Z) no k (En (frac_of n (kat (Z.of_nat m)))) (Un (frac_of n (kat (Z.of_nat m)))).
  Proof.
    rewrite nth_error_map. destruct (nth_error (meshl n) m) as [p|] eqn:Hm; [|discriminate]. intros Hs. injection Hs as <-.
    unfold kat. rewrite Nat2Z.id, (nth_error_nth _ _ _ Hm). apply Hk, (meshl_pos n m p P Hm).
  Qed.
  Lemma cell_size_ok : (if (l_dim l =? 2)%Z then get_lattice_area (g_lat (l_cell l)) DC else Ok (get_lattice_volume (g_lat (l_cell l)))) = Ok cell_size /\ 0 < cell_size.
  Proof.
    rewrite Hlat. unfold cell_size. pose proof (volume_pos _ _ _ Ind) as Vp. destruct (l_dim l =? 2)%Z.
    - cbn [get_lattice_area]. assert (Hn : np_norm (np_cross a0 a1) = area a0 a1).
      { clear. destruct a0 as [[p q] r], a1 as [[s t] u]. unfold np_norm, area. cbn. f_equal. ring. }
      split; [f_equal; exact Hn|]. unfold area. apply sqrt_lt_R0. clear - Ind. apply det_indep in Ind.
      destruct a0 as [[p q] r], a1 as [[s t] u], a2 as [[v w] k]. unfold np_det in Ind; v3. cbn.
      set (x := q * u - r * t) in *. set (y := r * s - p * u) in *. set (z := p * t - q * s) in *.
      replace (_ - _) with (x * x + y * y + z * z) by (unfold x, y, z; ring).
      destruct (Req_dec x 0) as [hx|Hx]; [destruct (Req_dec y 0) as [hy|Hy]; [destruct (Req_dec z 0) as [hz|Hz]|]|]; try nra.
    - rewrite det_volume. split; [reflexivity|exact Vp].
  Qed.

  Lemma ac_ok c1 c2 : (size <= npts n)%Z -> exists out, calc_ac_cond solve mpi size l (Some (c1, c2)) = Ok out /\ length out = Z.to_nat size /\
    forall ac, In ac out -> forall iw w, nth_error (l_omegas l) iw = Some w ->
      ac (Z.of_nat iw) = Cmul (0, IZR (l_gs l) / (cell_size * IZR (npts n)) / g_ext (l_cell l)) (sig c1 c2 w).
  Proof.
    intros Hs. unfold calc_ac_cond, grid2cart, lind_frac2cart. rewrite Hlat, (recip_dual _ _ _ _ _ _ Ind HD). cbn [bind frac2cart].
    rewrite Hgrid, (fracs_of l (meshl n)). fold n. rewrite Hhops. cbn [bind]. unfold states_at. fold no.
    destruct (states_ok (solve 1%Z) mpi size Hsize Hmpi no (map (frac_of n) (meshl n)) (fun i => En (frac_of n (kat i))) (fun i => Un (frac_of n (kat i))) ac_diag)
      as (gs & Hc & Hgl & Hgs & (sts & Hsts & Hh) & _). rewrite map_length in Hc, Hgs. fold nk in Hc, Hgs.
    rewrite Hsts. cbn [bind]. fold nk. rewrite (k_ranges_ok mpi size Hsize Hmpi (Z.of_nat nk) gs ltac:(lia)) by (solve [unfold nk; rewrite (meshl_len n P); exact Hs|exact Hgs]). cbn [bind].
    set (D := fun (i : Z) (j b : nat) => En (frac_of n (kat i)) j - En (frac_of n (kat i)) b).
    set (G := fun (w : R) (k : Z3) => sum_to no (fun m => sum_to no (fun p =>
      if Rlt_dec (Rabs (En (frac_of n k) m - En (frac_of n k) p)) tol7 then Cre 0 else
      Cmul (Cmul (Cre ((fermi (l_beta l) (l_mu l) (En (frac_of n k) m) - fermi (l_beta l) (l_mu l) (En (frac_of n k) p)) / (En (frac_of n k) m - En (frac_of n k) p)))
               (Cmul (melem no (fun a b => vel_mat hops (cart k) c1 (Z.of_nat a) (Z.of_nat b)) (Un (frac_of n k) p) (Un (frac_of n k) m))
                     (melem no (fun a b => vel_mat hops (cart k) c2 (Z.of_nat a) (Z.of_nat b)) (Un (frac_of n k) m) (Un (frac_of n k) p))))
         (crecip (En (frac_of n k) m - En (frac_of n k) p - w, - l_delta l))))).
    match goal with |- context [mapM ?f (combine sts gs)] =>
      destruct (mapM_exists f (fun y (ac : arr Z Cplx) => forall iw, ac iw = if inr (length (l_omegas l)) iw then esum (map (fun i => G (nth (Z.to_nat iw) (l_omegas l) 0) (kat i)) (snd y)) else Cre 0) (combine sts gs)) as (acs & Hacs & HF) end.
    { intros ((b & s) & ks) Hin. cbn [fst snd]. destruct (In_combine_zip _ _ _ _ Hin) as (Hbs & Hks).
      assert (Hb : forall k, In k ks -> (0 <= k < Z.of_nat nk)%Z) by (intros k Hik; exact (groups_in nk gs ks k Hc Hks Hik)).
      assert (Hhold : forall i, In i ks -> holds no b s i (En (frac_of n (kat i))) (Un (frac_of n (kat i)))).
      { intros i Hi. refine (Forall2_combine (fun bs k => forall i, In i k -> holds no (fst bs) (snd bs) i (En (frac_of n (kat i))) (Un (frac_of n (kat i)))) sts gs (b, s) ks _ Hin i Hi).
        clear - Hh. induction Hh; constructor; assumption. }
      destruct (prod_ac_at no b s hops (map (fun r : point => vadd (Vec.vmat r (b0, b1, b2)) (0, 0, 0)) (map (frac_of n) (meshl n))) (l_beta l) (l_mu l) c1 c2 ks (fun i => cart (kat i))) as (w & Hw & Hat).
      { intros k Hik. apply Hb in Hik. apply rd_z; [lia|]. rewrite !nth_error_map. rewrite (nth_error_nth' (meshl n) (0, 0, 0)%Z) by (fold nk; lia). cbn [option_map].
        f_equal. apply vmat_affine. }
      rewrite Hw. cbn [bind]. eexists. split; [reflexivity|]. intros iw. rewrite ac_kernel_at. destruct (inr (length (l_omegas l)) iw); [|reflexivity].
      rewrite ksum_eq. f_equal. apply map_ext_in. intros i Hi. unfold G. apply sum_to_ext. intros m Hm. apply sum_to_ext. intros p Hp.
      destruct (Hhold i Hi) as (hE & hU). destruct (Hat i (Z.of_nat m, Z.of_nat p)) as (h1 & h2). unfold ins in h1, h2. cbn [fst snd] in h1, h2.
      apply zmem_In in Hi as Hz. rewrite Hz, !inr_of in h1, h2 by assumption. cbn [andb] in h1, h2. rewrite h1, h2, !hE by assumption. clear h1 h2.
      destruct (Rlt_dec (Rabs (En (frac_of n (kat i)) m - En (frac_of n (kat i)) p)) tol7) as [Hlt|Hge].
      - replace (Rleb tol7 _) with false by (symmetry; apply Rleb_false; exact Hlt). unfold Cdiv. ceq; unfold Rdiv; ring.
      - replace (Rleb tol7 _) with true by (symmetry; apply Rleb_spec; lra). rewrite cdiv_recip'. f_equal. unfold ac_val. rewrite !occ_fermi, !hE by assumption.
        rewrite (ac_prod_melem no _ _ _ (Un (frac_of n (kat i)) p) (Un (frac_of n (kat i)) m)) by (intros o Ho; apply hU; assumption).
        rewrite (ac_prod_melem no _ _ _ (Un (frac_of n (kat i)) m) (Un (frac_of n (kat i)) p)) by (intros o Ho; apply hU; assumption).
        set (x := melem no _ _ _). set (y := melem no _ _ _). assert (Hnz : En (frac_of n (kat i)) m - En (frac_of n (kat i)) p <> 0).
        { intro Hz0. rewrite Hz0, Rabs_R0 in Hge. apply Hge. unfold tol7. apply Rinv_0_lt_compat, pow_lt. lra. }
        rewrite (cdiv_ext _ _ _ Hnz). ceq; ring. }
    rewrite Hacs. cbn [bind]. destruct cell_size_ok as (Hcs & Hpos). rewrite Hlat in Hcs. rewrite Hcs. cbn [bind].
    assert (Hnk : IZR (Z.of_nat nk) = IZR (npts n)) by (unfold nk; rewrite (meshl_len n P); reflexivity).
    assert (Hnp : 0 < IZR (npts n)) by (apply IZR_lt; lia).
    assert (Hvn : cell_size * IZR (Z.of_nat nk) <> 0) by (rewrite Hnk; apply Rgt_not_eq, Rmult_lt_0_compat; assumption).
    replace (Reqb (cell_size * IZR (Z.of_nat nk)) 0) with false by (symmetry; apply Reqb_false; exact Hvn).
    assert (HL : length acs = Z.to_nat size) by (rewrite <- (Forall2_len _ _ _ HF), combine_length, <- (Forall2_len _ _ _ Hh); lia).
    eexists. split; [reflexivity|]. split; [rewrite map_length, length_all_reduce; exact HL|]. intros ac Hin iw w Hw.
    apply in_map_iff in Hin. destruct Hin as (d & <- & Hd).
    assert (Ho : mpi = true \/ length acs = 1%nat) by (rewrite HL; destruct Hmpi as [->| ->]; [left; reflexivity|right; reflexivity]).
    rewrite (all_reduce_at CLaws mpi acs d Ho Hd). unfold total_arr.
    assert (Hi' : (iw < length (l_omegas l))%nat) by (apply nth_error_Some; congruence).
    assert (Hsum : esum (map (fun a : arr Z Cplx => a (Z.of_nat iw)) acs) = sig c1 c2 w).
    { transitivity (esum (map (fun ks => esum (map (fun i => G w (kat i)) ks)) gs)).
      - f_equal. rewrite <- (map_snd_combine (fun ks => esum (map (fun i => G w (kat i)) ks)) sts gs) by (symmetry; apply (Forall2_len _ _ _ Hh)).
        clear - HF Hw Hi'. induction HF as [|y a ys acs Hya HF IH]; [reflexivity|]. cbn [map]. f_equal; [|exact IH].
        rewrite Hya, inr_of by exact Hi'. rewrite Nat2Z.id, (nth_error_nth _ _ _ Hw). reflexivity.
      - rewrite (sum_groups CLaws), Hc. unfold sig, kubo. fold (G w). exact (esum_index (G w) (meshl n) (0, 0, 0)%Z). }
    match goal with |- context [esum (map ?f ?x)] => change (esum (map f x)) with (esum (map (fun a : arr Z Cplx => a (Z.of_nat iw)) acs)) end.
    setoid_rewrite Hsum. rewrite Hnk. unfold Cdiv, Ci. rewrite Hnk in Hvn. set (v := cell_size * IZR (npts n)) in *. destruct (sig c1 c2 w) as [x y]. ceq; field; split; assumption.
  Qed.
End AC.
