(** C27: distribution of work over processes and collection of results. *)
From Verif Require Import Prelude Vec Cx M_super M_sample M_par S_sample S_par L_base L_super L_sample L_samp2 L_csr L_par L_par2.
From Coq Require Import Permutation.

(** ** Splitting *)
Theorem C27_split_range : forall n g, 0 <= n -> 0 < g ->
  exists js, split_range n g = Ok js /\ length js = Z.to_nat g /\ cuts (zrange (Z.to_nat n)) (map span js) /\ balanced (map span js).
Proof. exact split_range_spec. Qed.
Print Assumptions C27_split_range.
Theorem C27_split_range_zero : forall n, split_range n 0 = Err ZeroDivisionError.
Proof. reflexivity. Qed.
Print Assumptions C27_split_range_zero.
Example C27_split_range_example : split_range 7 3 = Ok [(0, 3); (3, 5); (5, 7)] /\ split_range 2 4 = Ok [(0, 1); (1, 2); (2, 2); (2, 2)].
Proof. split; vm_compute; reflexivity. Qed.

Theorem C27_split_list : forall (A : Type) (raw : list A) g, 1 <= g <= Z.of_nat (length raw) ->
  (exists gs, split_list raw g Range = Ok gs /\ length gs = Z.to_nat g /\ cuts raw gs /\ balanced gs) /\
  (exists gs, split_list raw g Remainder = Ok gs /\ length gs = Z.to_nat g /\ Permutation (concat gs) raw /\ balanced gs /\
     forall k, (k < Z.to_nat g)%nat -> nth_error gs k =
       Some (map snd (filter (fun p : Z * A => fst p mod g =? Z.of_nat k) (combine (zrange (length raw)) raw)))).
Proof. intros A raw g H. split; [exact (split_list_range raw g H)|exact (split_list_remainder raw g H)]. Qed.
Print Assumptions C27_split_list.
Example C27_split_list_example :
  split_list [10; 11; 12; 13; 14] 2 Range = Ok [[10; 11; 12]; [13; 14]] /\
  split_list [10; 11; 12; 13; 14] 2 Remainder = Ok [[10; 12; 14]; [11; 13]].
Proof. split; vm_compute; reflexivity. Qed.

(** More groups than items: split_range gives empty groups, split_list
    refuses. *)
Theorem C27_split_list_bad : forall (A : Type) (raw : list A) g al,
  ~ (1 <= g <= Z.of_nat (length raw)) -> split_list raw g al = Err AssertionError.
Proof. exact @split_list_bad. Qed.
Print Assumptions C27_split_list_bad.

(** ** Ranks *)
Theorem C27_ranks : forall size n, 0 <= n -> 0 < size ->
  exists gs, mapM (fun r => dist_range size r n) (ranks size) = Ok gs /\ length gs = Z.to_nat size /\
    cuts (zrange (Z.to_nat n)) gs /\ balanced gs.
Proof. exact dist_ranges. Qed.
Print Assumptions C27_ranks.

(** The closed bounds given by dist_bound are those of dist_range. *)
Theorem C27_bounds : forall size rank n, 0 <= n -> 0 <= rank < size -> (size <= n \/ rank < n) ->
  exists a b, dist_bound size rank n = Ok (a, b) /\ a <= b /\ dist_range size rank n = Ok (span (a, b + 1)).
Proof. exact dist_bound_ok. Qed.
Print Assumptions C27_bounds.
Example C27_bounds_example : mapM (fun r => dist_bound 3 r 7) (ranks 3) = Ok [(0, 2); (3, 4); (5, 6)].
Proof. vm_compute. reflexivity. Qed.

(** A job with more processes than items fails in dist_bound and dist_list. *)
Theorem C27_idle_process_refuted : exists size n, 0 < n /\ 0 < size /\
  (exists rank, 0 <= rank < size /\ dist_bound size rank n = Err ValueError) /\
  forall (A : Type) (raw : list A) rank al, Z.of_nat (length raw) = n -> dist_list size rank raw al = Err AssertionError.
Proof.
  exists 3, 2. split; [lia|]. split; [lia|]. split.
  - exists 2. split; [lia|]. exact (dist_bound_empty 3 2 2 ltac:(lia) ltac:(lia)).
  - intros A raw rank al H. unfold dist_list. rewrite split_list_bad by lia. reflexivity.
Qed.
Print Assumptions C27_idle_process_refuted.
Theorem C27_idle_process : forall size rank n, 0 <= n -> n <= rank < size -> dist_bound size rank n = Err ValueError.
Proof. exact dist_bound_empty. Qed.
Print Assumptions C27_idle_process.

(** ** Sums over ranks *)
Theorem C27_sums : forall (V : Type) (SV : Scalar V) (VL : ScalarLaws V) (h : Z -> V) size n gs, 0 <= n -> 0 < size ->
  mapM (fun r => dist_range size r n) (ranks size) = Ok gs ->
  esum (map (fun ks => esum (map h ks)) gs) = esum (map h (zrange (Z.to_nat n))).
Proof.
  intros V SV VL h size n gs Hn Hs Hg. destruct (dist_ranges size n Hn Hs) as (gs' & Hg' & _ & Hc & _).
  rewrite Hg in Hg'. injection Hg' as <-. rewrite (sum_groups VL), Hc. reflexivity.
Qed.
Print Assumptions C27_sums.

(** ** Bands, projections, density of states, eigenstates *)
Section Diag.
  Context (E T : Type) (SE : Scalar E) (ST : Scalar T) (TL : ScalarLaws T) (EL : ScalarLaws E).
  Context (solve : vec T -> res (list T * list (list E))) (order : list T -> list Z) (absq : E -> T)
          (leb : T -> T -> bool) (inv : T -> T) (trunc : T -> Z).

  Theorem C27_bands : forall mpi size kpts nb no orbs eig vecs, 0 < size -> (mpi = true \/ size = 1) ->
    solved solve kpts nb no eig vecs -> (forall i, ordered order (eig i)) ->
    (match orbs with Some o => forall x, In x o -> 0 <= x < no | None => True end) ->
    exists out, calc_bands solve order absq mpi size kpts nb orbs = Ok out /\ length out = Z.to_nat size /\
      forall b p, In (b, p) out -> forall i j, (i < length kpts)%nat -> 0 <= j < nb ->
        let m := Z.to_nat (nth (Z.to_nat j) (order (eig i)) 0) in
        b (Z.of_nat i, j) = nth m (eig i) s0 /\
        p (Z.of_nat i, j) = match orbs with Some o => weight absq (nth m (vecs i) []) o | None => s1 end.
  Proof.
    intros mpi size kpts nb no orbs eig vecs Hsz Hm Hs Ho Horb.
    set (r := fun i => match band_rows solve order absq kpts nb orbs i with Ok r => r | Err _ => (fun _ => s0, fun _ => s0) end).
    destruct (calc_bands_rows TL solve order absq mpi size Hsz Hm kpts nb orbs r) as (out & Hout & Hl & Hv).
    - intros i Hi. destruct (band_rows_ok TL solve order absq kpts nb no orbs eig vecs i Hs Ho Horb Hi) as (q & Hq & _).
      unfold r. rewrite Hq. reflexivity.
    - exists out. split; [exact Hout|]. split; [exact Hl|]. intros b p Hin i j Hi Hj m.
      destruct (Hv b p Hin (Z.of_nat i) j ltac:(lia)) as (H1 & H2).
      destruct (band_rows_ok TL solve order absq kpts nb no orbs eig vecs (Z.of_nat i) Hs Ho Horb ltac:(lia)) as (q & Hq & Hqv).
      destruct (Hqv j Hj) as (H3 & H4). unfold r in H1, H2. rewrite Hq in H1, H2. rewrite Nat2Z.id in H3, H4. fold m in H3, H4.
      split; [congruence|]. destruct orbs; congruence.
  Qed.

  (** No k-point is left out: a solver that raises for one of them makes the
      run raise. *)
  Theorem C27_bands_failure : forall mpi size kpts nb orbs i k x, 0 < size -> (mpi = true \/ size = 1) ->
    nth_error kpts i = Some k -> solve k = Err x -> exists y, calc_bands solve order absq mpi size kpts nb orbs = Err y.
  Proof.
    intros mpi size kpts nb orbs i k x Hs Hm Hk Hx. destruct (calc_bands _ _ _ _ _ _ _ _) as [out|y] eqn:H; [|exists y; reflexivity].
    assert (Hi : (i < length kpts)%nat) by (apply nth_error_Some; congruence).
    destruct (calc_bands_all solve order absq mpi size Hs Hm kpts nb orbs out H (Z.of_nat i) ltac:(lia)) as (r & Hr).
    unfold band_rows in Hr. rewrite (rd_ok _ _ _ Hk) in Hr. cbn [bind] in Hr. rewrite Hx in Hr. discriminate.
  Qed.

  (** calc_dos, given what calc_bands returns. *)
  Theorem C27_dos : forall mpi size kpts nb no orbs eig vecs lo hi st f gs en, 0 < size -> (mpi = true \/ size = 1) -> 0 <= nb ->
    solved solve kpts nb no eig vecs -> (forall i, ordered order (eig i)) ->
    (match orbs with Some o => forall x, In x o -> 0 <= x < no | None => True end) ->
    let sel i j := Z.to_nat (nth j (order (eig i)) 0) in
    let level i j := nth (sel i j) (eig i) s0 in
    let w i j := match orbs with Some o => weight absq (nth (sel i j) (vecs i) []) o | None => s1 end in
    dos_grid leb inv trunc (Z.of_nat (length kpts)) nb (fun q => level (Z.to_nat (fst q)) (Z.to_nat (snd q))) lo hi st = Ok en ->
    exists out, calc_dos solve order absq leb inv trunc mpi size kpts nb orbs lo hi st (Some f) gs = Ok out /\ length out = Z.to_nat size /\
      forall en' d, In (en', d) out -> en' = en /\
        forall g, (g < length en)%nat -> d (Z.of_nat g) = density inv f (length kpts) (Z.to_nat nb) level w gs (nth g en s0).
  Proof.
    intros mpi size kpts nb no orbs eig vecs lo hi st f gs en Hsz Hm Hnb Hs Ho Horb sel level w Hg.
    destruct (C27_bands mpi size kpts nb no orbs eig vecs Hsz Hm Hs Ho Horb) as (bps & Hb & Hl & Hv).
    destruct (calc_dos_ok TL solve order absq leb inv trunc mpi size Hsz Hm kpts nb orbs lo hi st f gs bps
      (fun q => level (Z.to_nat (fst q)) (Z.to_nat (snd q))) (fun q => w (Z.to_nat (fst q)) (Z.to_nat (snd q))) en Hnb Hb Hl) as (out & Hout & Hlo & Hd).
    - intros b p Hin i j Hi Hj. destruct (Hv b p Hin (Z.to_nat i) j ltac:(lia) Hj) as (H1 & H2). rewrite Z2Nat.id in H1, H2 by lia.
      split; assumption.
    - exact Hg.
    - exists out. split; [exact Hout|]. split; [exact Hlo|]. intros en' d Hin. destruct (Hd en' d Hin) as (He & Hval).
      split; [exact He|]. intros g Hgl. rewrite (Hval g Hgl). unfold density. f_equal. f_equal. f_equal. apply map_ext. intros i. f_equal.
      apply map_ext. intros j. cbn [fst snd]. rewrite !Nat2Z.id. reflexivity.
  Qed.

  Theorem C27_states : forall mpi size kpts nb no eig vecs, 0 < size -> (mpi = true \/ size = 1) ->
    solved solve kpts nb no eig vecs ->
    exists out, calc_states solve mpi size kpts nb no true = Ok out /\ length out = Z.to_nat size /\
      forall b s, In (b, s) out -> forall i j o, (i < length kpts)%nat -> 0 <= j < nb ->
        b (Z.of_nat i, j) = nth (Z.to_nat j) (eig i) s0 /\
        s (Z.of_nat i, (j, o)) = nth (Z.to_nat o) (nth (Z.to_nat j) (vecs i) []) s0.
  Proof.
    intros mpi size kpts nb no eig vecs Hsz Hm Hs.
    set (r := fun i => match state_rows solve kpts nb no i with Ok r => r | Err _ => (fun _ => s0, fun _ => s0) end).
    destruct (calc_states_rows TL EL solve mpi size Hsz Hm kpts nb no r) as (_ & _ & _ & _ & out & Hout & Hl & Hv).
    - intros i Hi. destruct (state_rows_ok solve kpts nb no eig vecs i Hs Hi) as (q & Hq & _). unfold r. rewrite Hq. reflexivity.
    - exists out. split; [exact Hout|]. split; [exact Hl|]. intros b s Hin i j o Hi Hj.
      destruct (Hv b s Hin (Z.of_nat i) ltac:(lia)) as (H1 & H2).
      destruct (state_rows_ok solve kpts nb no eig vecs (Z.of_nat i) Hs ltac:(lia)) as (q & Hq & H3 & H4).
      rewrite H1, H2. unfold r. rewrite Hq, H3, (H4 j o Hj), Nat2Z.id. split; reflexivity.
  Qed.
  Theorem C27_states_failure : forall mpi size kpts nb no red i k x, 0 < size -> (mpi = true \/ size = 1) ->
    nth_error kpts i = Some k -> solve k = Err x -> exists y, calc_states solve mpi size kpts nb no red = Err y.
  Proof.
    intros mpi size kpts nb no red i k x Hs Hm Hk Hx. destruct (calc_states _ _ _ _ _ _ _) as [out|y] eqn:H; [|exists y; reflexivity].
    assert (Hi : (i < length kpts)%nat) by (apply nth_error_Some; congruence).
    destruct (calc_states_all solve mpi size Hs Hm kpts nb no red out H (Z.of_nat i) ltac:(lia)) as (r & Hr).
    unfold state_rows in Hr. rewrite (rd_ok _ _ _ Hk) in Hr. cbn [bind] in Hr. rewrite Hx in Hr. discriminate.
  Qed.
End Diag.
Print Assumptions C27_bands.
Print Assumptions C27_bands_failure.
Print Assumptions C27_dos.
Print Assumptions C27_states.
Print Assumptions C27_states_failure.

(** Three k-points with two levels each, on two processes. *)
Definition toy (k : vec Z) : res (list Z * list (list Z)) :=
  let '(x, y, z) := k in if x <? 0 then Err RuntimeError else Ok ([x; x + 3], [[1; 0]; [0; 2]]).
Definition toy_k : list (vec Z) := [(1, 0, 0); (5, 0, 0); (2, 0, 0)].
Definition toy_eig (i : nat) : list Z := nth i [[1; 4]; [5; 8]; [2; 5]] [0; 3].
Definition toy_vec (i : nat) : list (list Z) := [[1; 0]; [0; 2]].
Definition toy_order (l : list Z) : list Z := rev (zrange (length l)).
Example C27_bands_example :
  solved toy toy_k 2 2 toy_eig toy_vec /\ (forall i, ordered toy_order (toy_eig i)) /\
  (exists out, calc_bands toy toy_order (fun x => x * x) true 2 toy_k 2 (Some [1]) = Ok out /\
    map (fun bp : arr (Z * Z) Z * arr (Z * Z) Z => map (fun i => (fst bp (i, 0), fst bp (i, 1), snd bp (i, 0))) [0; 1; 2]) out =
    [[(4, 1, 4); (8, 5, 4); (5, 2, 4)]; [(4, 1, 4); (8, 5, 4); (5, 2, 4)]]).
Proof.
  split; [|split].
  - intros i k Hk. destruct i as [|[|[|i]]]; cbn in Hk; try (destruct i; discriminate); injection Hk as <-;
      repeat split; try reflexivity; intros st [<-|[<-|[]]]; reflexivity.
  - intros i. unfold ordered, toy_order. apply Permutation_sym, Permutation_rev.
  - eexists. split; [reflexivity|vm_compute; reflexivity].
Qed.
Example C27_dos_example :
  match calc_dos toy toy_order (fun x => x * x) Z.leb (fun x => x) (fun x => x) true 2 toy_k 2 None (Some 0) (Some 2) 1 (Some (fun e l => e + l)) 2 with
  | Ok out => map (fun q : list Z * arr Z Z => (fst q, snd q 1)) out = [([0; 4; 8], (4 + 1 + 4 + 4 + 4 + 8 + 4 + 5 + 4 + 2 + 4 + 5) * 6 * 2); ([0; 4; 8], 588)]
  | Err _ => False end.
Proof. vm_compute. reflexivity. Qed.
