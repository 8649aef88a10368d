(** Averages over the samples of all processes. *)
From Verif Require Import Prelude Vec Cx M_super M_sample M_par M_prop M_tbpm S_prop S_tbpm L_base L_super L_csr L_par L_par2 L_prop L_prop2 L_tbpm L_tbpm2 L_tbpm3.

Section All.
  Context {E : Type} {SE : Scalar E} (EL : ScalarLaws E).
  Context (conj : E -> E) (img : E) (inv : E -> E) (is0 : E -> bool) (re im sqrt : E -> E) (bad : E -> E -> bool).
  Context (state : Z -> list E) (Hinv : forall z, z <> 0 -> smul (sZ z) (inv (sZ z)) = s1).
  Add Ring ering6 : (s_ring E EL).

  (** From one sample to the average. *)
  Lemma averaged_of {C I J} (mk : (I -> E) -> C) (body : Z -> list E -> C -> res C) (fail : Z -> option exn) (val : Z -> I -> E)
      (out : C -> arr J E) (conv : J -> I) (ok : J -> Prop) seed mpi size n init (run : Z -> Z -> res (arr J E)) :
    (forall f g, (forall i, f i = g i) -> mk f = mk g) ->
    (forall ns s f, body ns (state s) (mk f) =
       match fail s with None => Ok (mk (fun i => sadd (f i) (per inv ns (val s i)))) | Some e => Err e end) ->
    init = mk (fun _ => s0) ->
    (forall f j, ok j -> out (mk f) j = f (conv j)) ->
    (forall rank ns, run rank ns = bind (over_samples state seed ns rank (body ns) init) (fun c => Ok (out c))) ->
    0 < size -> mpi = true \/ size = 1 -> 0 < n ->
    averaged inv size n seed fail (fun s j => val s (conv j)) ok (sampled inv mpi size n run).
  Proof.
    intros Hmk Hbody Hinit Hout Hrun Hs Hm Hn.
    destruct (sampled_ok EL inv Hinv run fail (fun s j => val s (conv j)) seed ok) with (mpi := mpi) (size := size) (n := n) as (total & Hr & H); try assumption.
    - intros rank ns Hrank Hns. rewrite Hrun, Hinit. rewrite (over_samples_tab EL inv state mk Hmk ns (body ns) fail val (Hbody ns)).
      destruct (first_fail fail (seeds ns seed rank)) as [e|]; [reflexivity|]. cbn [bind]. eexists. split; [reflexivity|]. intros j Hj. rewrite Hout by exact Hj. ring.
    - exists total. split; [exact Hr|]. cbv zeta in H.
      destruct (first_fail fail _) as [e|] eqn:Hf.
      + left. apply first_fail_Some in Hf. destruct Hf as (s & Hi & Hs'). apply in_map_iff in Hi. destruct Hi as (j & <- & Hj). apply in_seq in Hj.
        exists (Z.of_nat j + 1), e. split; [lia|]. split; assumption.
      + right. rewrite first_fail_None in Hf. split; [|exact H]. intros s Hs'. apply Hf. apply in_map_iff. exists (Z.to_nat (s - 1)). split; [f_equal; lia|]. apply in_seq. lia.
  Qed.

  Context (Himg : smul img img = sopp s1).
  Context (m : spm E) (n : nat) (Hwf : wf n m) (psi : Z -> nat -> E) (Hstate : forall s, state s = tab n (psi s)).
  Context (mpi : bool) (size nr seed : Z) (Hsize : 0 < size) (Hmpi : mpi = true \/ size = 1) (Hnr : 0 < nr).
  Notation h := (mat_of m).

  Lemma as_array_tab N f t : 0 <= t < Z.of_nat N -> as_array (tab N f) t = f (Z.to_nat t).
  Proof. intros H. unfold as_array. apply nth_error_nth with (d := s0). rewrite tab_nth by lia. reflexivity. Qed.
  Lemma as_array2_tab N M (f : nat -> nat -> E) i j : 0 <= i < Z.of_nat N -> 0 <= j < Z.of_nat M -> as_array2 (tab N (fun i => tab M (f i))) (i, j) = f (Z.to_nat i) (Z.to_nat j).
  Proof.
    intros H1 H2. unfold as_array2. cbn [fst snd]. rewrite (nth_error_nth (tab N (fun i => tab M (f i))) (Z.to_nat i) [] (x := tab M (f (Z.to_nat i)))) by (rewrite tab_nth by lia; reflexivity).
    apply nth_error_nth with (d := s0). rewrite tab_nth by lia. reflexivity.
  Qed.

  Section Steps.
  Context (jv : Z -> E) (gt : E -> bool) (bmax : Z) (bes : list E) (Hb : bessel_series jv gt bmax = Ok bes) (Hbes : (3 <= length bes)%nat).
  Notation U := (evolved img n h bes).
  Lemma dos_all (nt : nat) chk : (1 <= nt)%nat ->
    averaged inv size nr seed (fun s => one_fail conj bad n 2 (Z.of_nat nt) chk (fun t => U t (psi s)) (U 1 (psi s)))
      (fun s t => dos_value conj img n h bes (psi s) (Z.to_nat t)) (fun t => 0 <= t <= Z.of_nat nt)
      (calc_corr_dos conj img inv bad state mpi size nr jv gt bmax m seed (Z.of_nat nt) chk).
  Proof.
    intros Hnt. unfold calc_corr_dos. rewrite Hb. cbn [bind].
    apply (averaged_of (tab (nt + 1)) (fun ns => dos_body conj img inv bad m bes ns (Z.of_nat nt) chk) _ (fun s t => dos_value conj img n h bes (psi s) t) as_array Z.to_nat
       (fun t => 0 <= t <= Z.of_nat nt) seed mpi size nr (repeat s0 (Z.to_nat (Z.of_nat nt + 1)))); try assumption.
    - intros f g H. apply tab_ext. intros i _. apply H.
    - intros ns s f. rewrite Hstate. apply dos_one; assumption.
    - replace (Z.to_nat (Z.of_nat nt + 1)) with (nt + 1)%nat by lia. apply repeat_tab.
    - intros f t Ht. apply as_array_tab. lia.
    - intros rank ns. reflexivity.
  Qed.
  Lemma ldos_all sites (nt : nat) chk : (forall s, In s sites -> 0 <= s < Z.of_nat n) ->
    averaged inv size nr seed (fun s => ldos_fail conj img inv is0 sqrt bad n h bes sites (Z.of_nat nt) chk (psi s))
      (fun s t => dos_value conj img n h bes (site_state conj inv sqrt n sites (psi s)) (Z.to_nat t)) (fun t => 0 <= t <= Z.of_nat nt)
      (calc_corr_ldos conj img inv is0 sqrt bad state mpi size nr sites jv gt bmax m seed (Z.of_nat nt) chk).
  Proof.
    intros Hsites. unfold calc_corr_ldos. rewrite Hb. cbn [bind].
    apply (averaged_of (tab (nt + 1)) (fun ns => ldos_body conj img inv is0 sqrt bad m bes sites ns (Z.of_nat nt) chk) _
       (fun s t => dos_value conj img n h bes (site_state conj inv sqrt n sites (psi s)) t) as_array Z.to_nat
       (fun t => 0 <= t <= Z.of_nat nt) seed mpi size nr (repeat s0 (Z.to_nat (Z.of_nat nt + 1)))); try assumption.
    - intros f g H. apply tab_ext. intros i _. apply H.
    - intros ns s f. rewrite Hstate. apply ldos_one; assumption.
    - replace (Z.to_nat (Z.of_nat nt + 1)) with (nt + 1)%nat by lia. apply repeat_tab.
    - intros f t Ht. apply as_array_tab. lia.
    - intros rank ns. reflexivity.
  Qed.
  Section Fermi.
  Context (cF cO : list E) (HcF : (3 <= length cF)%nat) (HcO : (3 <= length cO)%nat).
  Definition fermi_fail (nt chk : Z) (s : Z) : option exn :=
    one_fail conj bad n 2 nt chk (fun t => U (t - 1) (op_series n h cF (psi s))) (op_series n h cF (psi s)).
  Lemma ac_all resc dx dy (nt : nat) chk : length dx = length (p_indices m) -> length dy = length (p_indices m) ->
    averaged inv size nr seed (fermi_fail (Z.of_nat nt) chk)
      (fun s p => ac_value conj img n h bes (cur_mat img m resc dx) (cur_mat img m resc dy) cF cO (psi s) (Z.to_nat (snd p)) (Z.to_nat (fst p))) (fun p => 0 <= fst p < 4 /\ 0 <= snd p < Z.of_nat nt)
      (calc_corr_ac_cond conj img inv bad state mpi size nr jv gt bmax cF cO m resc dx dy seed (Z.of_nat nt) chk).
  Proof.
    intros Hdx Hdy. unfold calc_corr_ac_cond. rewrite Hb. cbn [bind].
    apply (averaged_of (fun f : nat * nat -> E => tab nt (fun t => tab 4 (fun c => f (t, c)))) (fun ns => ac_body conj img inv bad m bes resc dx dy cF cO ns (Z.of_nat nt) chk) _
       (fun s p => ac_value conj img n h bes (cur_mat img m resc dx) (cur_mat img m resc dy) cF cO (psi s) (fst p) (snd p)) (fun l p => as_array2 l (snd p, fst p)) (fun p => (Z.to_nat (snd p), Z.to_nat (fst p)))
       _ seed mpi size nr (repeat [s0; s0; s0; s0] (Z.to_nat (Z.of_nat nt)))); try assumption.
    - intros f g H. apply tab_ext. intros i _. apply tab_ext. intros j _. apply H.
    - intros ns s f. rewrite Hstate. apply ac_one; assumption.
    - rewrite Nat2Z.id. change [s0; s0; s0; s0] with (tab 4 (fun _ => s0)). apply repeat_tab.
    - intros f [c t] [H1 H2]. cbn [fst snd] in *. rewrite (as_array2_tab nt 4 (fun t c => f (t, c))) by lia. reflexivity.
    - intros rank ns. reflexivity.
  Qed.
  Lemma pol_q (rho rhom : nat -> E) (nt : nat) chk ns rank : (1 <= nt)%nat ->
    dyn_pol_q conj img inv im bad state bes cF cO m (tab n rho, tab n rhom) seed (Z.of_nat nt) ns rank chk =
    match first_fail (fermi_fail (Z.of_nat nt) chk) (seeds ns seed rank) with
    | None => Ok (tab nt (fun t => per inv ns (esum (map (fun s => pol_value conj img im n h bes cF cO rho rhom (psi s) t) (seeds ns seed rank)))))
    | Some e => Err e
    end.
  Proof.
    intros Hnt. unfold dyn_pol_q. rewrite Nat2Z.id, repeat_tab. cbn [fst snd].
    change (fun wf0 corr => bind (fermi_op m cO (pmul (tab n rhom) wf0)) _) with (pol_body conj img inv im bad m n bes cF cO rho rhom ns (Z.of_nat nt) chk).
    rewrite (over_samples_tab EL inv state (tab nt) ltac:(intros f g H; apply tab_ext; intros i _; apply H) ns
      (pol_body conj img inv im bad m n bes cF cO rho rhom ns (Z.of_nat nt) chk) (fermi_fail (Z.of_nat nt) chk)
      (fun s t => pol_value conj img im n h bes cF cO rho rhom (psi s) t)).
    - destruct (first_fail _ _); [reflexivity|]. f_equal. apply tab_ext. intros t _. ring.
    - intros s f. rewrite Hstate. apply pol_one; assumption.
  Qed.
  Lemma pol_all (nq : nat) (rho rhom : nat -> nat -> E) (nt : nat) chk : (1 <= nt)%nat -> (1 <= nq)%nat ->
    averaged inv size nr seed (fermi_fail (Z.of_nat nt) chk)
      (fun s p => pol_value conj img im n h bes cF cO (rho (Z.to_nat (fst p))) (rhom (Z.to_nat (fst p))) (psi s) (Z.to_nat (snd p))) (fun p => 0 <= fst p < Z.of_nat nq /\ 0 <= snd p < Z.of_nat nt)
      (calc_corr_dyn_pol conj img inv im bad state mpi size nr jv gt bmax cF cO m (tab nq (fun q => (tab n (rho q), tab n (rhom q)))) seed (Z.of_nat nt) chk).
  Proof.
    intros Hnt Hnq. unfold calc_corr_dyn_pol. rewrite Hb. cbn [bind].
    destruct (sampled_ok EL inv Hinv (fun rank ns => bind (tbpm_dyn_pol conj img inv im bad state bes cF cO m (tab nq (fun q => (tab n (rho q), tab n (rhom q)))) seed (Z.of_nat nt) ns rank chk) (fun l => Ok (as_array2 l)))
      (fermi_fail (Z.of_nat nt) chk) (fun s p => pol_value conj img im n h bes cF cO (rho (Z.to_nat (fst p))) (rhom (Z.to_nat (fst p))) (psi s) (Z.to_nat (snd p)))
      seed (fun p => 0 <= fst p < Z.of_nat nq /\ 0 <= snd p < Z.of_nat nt)) with (mpi := mpi) (size := size) (n := nr) as (total & Hr & H); try assumption.
    - intros rank ns Hrank Hns. unfold tbpm_dyn_pol.
      destruct (first_fail (fermi_fail (Z.of_nat nt) chk) (seeds ns seed rank)) as [e|] eqn:Hf.
      + destruct nq as [|k]; [lia|]. unfold tab at 1. cbn [seq map mapM]. rewrite pol_q by exact Hnt. rewrite Hf. reflexivity.
      + rewrite (mapM_tab _ nq _ (fun q => tab nt (fun t => per inv ns (esum (map (fun s => pol_value conj img im n h bes cF cO (rho q) (rhom q) (psi s) t) (seeds ns seed rank)))))).
        * cbn [bind]. eexists. split; [reflexivity|]. intros [q t] [H1 H2]. cbn [fst snd] in *.
          rewrite (as_array2_tab nq nt (fun q t => per inv ns (esum (map (fun s => pol_value conj img im n h bes cF cO (rho q) (rhom q) (psi s) t) (seeds ns seed rank))))) by lia. reflexivity.
        * intros q Hq. rewrite pol_q by exact Hnt. rewrite Hf. reflexivity.
    - exists total. split; [exact Hr|]. cbv zeta in H.
      destruct (first_fail _ _) as [e|] eqn:Hf.
      + left. apply first_fail_Some in Hf. destruct Hf as (s & Hi & Hs'). apply in_map_iff in Hi. destruct Hi as (j & <- & Hj). apply in_seq in Hj.
        exists (Z.of_nat j + 1), e. split; [lia|]. split; assumption.
      + right. rewrite first_fail_None in Hf. split; [|exact H]. intros s Hs'. apply Hf. apply in_map_iff. exists (Z.to_nat (s - 1)). split; [f_equal; lia|]. apply in_seq. lia.
  Qed.
  End Fermi.
  Lemma quasi_all wdw ph (nt : nat) chk :
    averaged inv size nr seed (fun s => quasi_fail conj img is0 re sqrt bad n h bes wdw ph (Z.of_nat nt) chk (psi s))
      (fun s p => match nth_error ph (Z.to_nat (fst p)) with
                  | Some e => let q := scaled (inv (quasi_norm conj img re sqrt n h bes wdw nt (psi s) e)) (quasi conj img n h bes wdw nt (psi s) e) (Z.to_nat (snd p)) in smul (conj q) q
                  | None => s0
                  end) (fun p => 0 <= fst p < Z.of_nat (length ph) /\ 0 <= snd p < Z.of_nat n)
      (calc_quasi_eigenstates conj img inv is0 re sqrt bad state mpi size nr jv gt bmax m wdw ph n seed (Z.of_nat nt) chk).
  Proof.
    unfold calc_quasi_eigenstates. rewrite Hb. cbn [bind].
    apply (averaged_of (fun f : nat * nat -> E => tab (length ph) (fun p => tab n (fun c => f (p, c))))
       (fun ns wf0 avg => bind (quasi_states conj img inv is0 re sqrt bad bes m wdw ph (Z.of_nat nt) chk wf0) (fun qs =>
          Ok (map (fun p => zip (fun a q => sadd a (per inv ns (smul (conj q) q))) (fst p) (snd p)) (combine avg qs)))) _
       (fun s p => match nth_error ph (fst p) with
                  | Some e => let q := scaled (inv (quasi_norm conj img re sqrt n h bes wdw nt (psi s) e)) (quasi conj img n h bes wdw nt (psi s) e) (snd p) in smul (conj q) q
                  | None => s0
                  end) as_array2 (fun p => (Z.to_nat (fst p), Z.to_nat (snd p)))
       _ seed mpi size nr (repeat (repeat s0 n) (length ph))); try assumption.
    - intros f g H. apply tab_ext. intros i _. apply tab_ext. intros j _. apply H.
    - intros ns s f. rewrite Hstate. rewrite (quasi_states_tab EL) by assumption. destruct (quasi_fail _ _ _ _ _ _ _ _ _ _ _ _ _ _); [reflexivity|]. cbn [bind]. f_equal.
      set (vals := map (fun p => tab n (scaled (inv (quasi_norm conj img re sqrt n h bes wdw nt (psi s) p)) (quasi conj img n h bes wdw nt (psi s) p))) ph).
      assert (Hv : vals = tab (length ph) (fun i => nth i vals [])).
      { apply list_ext; [unfold vals; rewrite map_length, tab_length; reflexivity|]. intros i Hi. unfold vals in Hi. rewrite map_length in Hi. rewrite tab_nth by exact Hi. apply nth_error_nth'. unfold vals. rewrite map_length. exact Hi. }
      rewrite Hv, combine_tab, map_tab. apply tab_ext. intros i Hi. cbn [fst snd].
      destruct (nth_error ph i) as [e|] eqn:He; [|apply nth_error_None in He; lia].
      assert (Hn : nth i vals [] = tab n (scaled (inv (quasi_norm conj img re sqrt n h bes wdw nt (psi s) e)) (quasi conj img n h bes wdw nt (psi s) e))).
      { apply nth_error_nth. unfold vals. rewrite nth_error_map, He. reflexivity. }
      rewrite Hn, zip_tab. reflexivity.
    - rewrite (repeat_tab s0 n). apply repeat_tab.
    - intros f [p c] [H1 H2]. cbn [fst snd] in *. rewrite (as_array2_tab (length ph) n (fun p c => f (p, c))) by lia. reflexivity.
    - intros rank ns. reflexivity.
  Qed.
  End Steps.

  Lemma kb_all resc dx dy (g : nat -> E) (nk : nat) dir : length dx = length (p_indices m) -> length dy = length (p_indices m) -> (2 <= nk)%nat -> dir = 1 \/ dir = 2 ->
    averaged inv size nr seed (fun _ => None)
      (fun s p => kb_value conj n h (cur_mat img m resc dx) (cur_mat img m resc (if dir =? 1 then dx else dy)) g (psi s) (Z.to_nat (fst p), Z.to_nat (snd p))) (fun p => 0 <= fst p < Z.of_nat nk /\ 0 <= snd p < Z.of_nat nk)
      (calc_hall_mu conj img inv state mpi size nr (tab nk g) m resc dx dy seed (Z.of_nat nk) dir).
  Proof.
    intros Hdx Hdy Hnk Hdir. unfold calc_hall_mu.
    apply (averaged_of (fun f : nat * nat -> E => tab nk (fun t => tab nk (fun c => f (t, c)))) (fun ns => kb_body conj img inv m resc dx dy (tab nk g) (Z.of_nat nk) dir ns) _
       (fun s p => kb_value conj n h (cur_mat img m resc dx) (cur_mat img m resc (if dir =? 1 then dx else dy)) g (psi s) p) as_array2 (fun p => (Z.to_nat (fst p), Z.to_nat (snd p)))
       _ seed mpi size nr (repeat (repeat s0 (Z.to_nat (Z.of_nat nk))) (Z.to_nat (Z.of_nat nk)))); try assumption.
    - intros f g' H. apply tab_ext. intros i _. apply tab_ext. intros j _. apply H.
    - intros ns s f. rewrite Hstate. apply (kb_one EL); assumption.
    - rewrite Nat2Z.id, (repeat_tab s0 nk). apply repeat_tab.
    - intros f [c t] [H1 H2]. cbn [fst snd] in *. rewrite (as_array2_tab nk nk (fun t c => f (t, c))) by lia. reflexivity.
    - intros rank ns. reflexivity.
  Qed.
End All.

Section Same.
  Context {E : Type} {SE : Scalar E} (EL : ScalarLaws E) (inv : E -> E) (Hinv : forall z, z <> 0 -> smul (sZ z) (inv (sZ z)) = s1).
  Add Ring ering7 : (s_ring E EL).
  Lemma mean_const total (c : E) : 0 < total -> mean inv total (fun _ => c) = c.
  Proof.
    intros Ht. unfold mean. assert (HH : forall k : nat, sum_to k (fun _ => c) = smul (sZ (Z.of_nat k)) c).
    { induction k as [|k IH].
      - unfold sum_to. cbn [seq map]. rewrite esum_nil by assumption. change (Z.of_nat 0) with 0. rewrite (sZ_0 E EL). ring.
      - rewrite (sum_S EL), IH. replace (Z.of_nat (S k)) with (Z.of_nat k + 1) by lia. rewrite (sZ_add E EL), (sZ_1 E EL). ring. }
    rewrite HH, Z2Nat.id by lia. transitivity (smul c (smul (sZ total) (inv (sZ total)))); [ring|]. rewrite Hinv by lia. ring.
  Qed.
  Lemma mean_ext total f g : (forall s, 1 <= s <= total -> f s = g s) -> mean inv total f = mean inv total g.
  Proof using Type. clear Hinv. intros H. unfold mean. f_equal. apply sum_ext. intros k Hk. apply H. lia. Qed.
  Lemma averaged_ext {I} size n seed fail (val val' : Z -> I -> E) (ok : I -> Prop) r : (forall s i, ok i -> val s i = val' s i) ->
    averaged inv size n seed fail val ok r -> averaged inv size n seed fail val' ok r.
  Proof using Type.
    clear Hinv.
    intros H (total & Hr & HH). exists total. split; [exact Hr|]. destruct HH as [HH|(Hf & l & Hl & Hlen & Hv)]; [left; exact HH|right].
    split; [exact Hf|]. exists l. split; [exact Hl|]. split; [exact Hlen|]. intros a i Ha Hi. rewrite (Hv a i Ha Hi). apply mean_ext. intros s _. apply H. exact Hi.
  Qed.
End Same.
