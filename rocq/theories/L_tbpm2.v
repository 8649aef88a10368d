(** One sample of each calculation. *)
From Verif Require Import Prelude Vec Cx M_super M_sample M_par M_prop M_tbpm S_prop S_tbpm L_base L_super L_csr L_par L_par2 L_prop L_prop2 L_tbpm.

Section One.
  Context {E : Type} {SE : Scalar E} (EL : ScalarLaws E).
  Context (conj : E -> E) (img : E) (inv : E -> E) (is0 : E -> bool) (re im sqrt : E -> E) (bad : E -> E -> bool).
  Add Ring ering5 : (s_ring E EL).
  Context (Himg : smul img img = sopp s1).
  Context (m : spm E) (n : nat) (Hwf : wf n m) (bes : list E) (Hbes : (3 <= length bes)%nat).
  Notation h := (mat_of m).
  Notation vector := (nat -> E).
  Notation U := (evolved img n h bes).
  Notation Ub := (evolved_back img n h bes).
  Notation one_fail := (one_fail conj bad n).
  Notation site_norm := (site_norm conj sqrt n).
  Notation site_state := (site_state conj inv sqrt n).
  Notation ldos_fail := (ldos_fail conj img inv is0 sqrt bad n h bes).

  Lemma step_U x t : cheb_wf_timestep img m bes (tab n (U t x)) true = Ok (tab n (U (S t) x)).
  Proof. rewrite (timestep_tab EL m n Hwf) by assumption. reflexivity. Qed.
  Lemma step_Ub x t : cheb_wf_timestep img m bes (tab n (Ub t x)) false = Ok (tab n (Ub (S t) x)).
  Proof. rewrite (timestep_tab EL m n Hwf) by assumption. reflexivity. Qed.


  Lemma checked_bad a len chk (x : nat -> vector) (ref : vector) :
    checked chk (fun k => tab n (x k)) (fun w => bad (inner_prod conj w w) (inner_prod conj (tab n ref) (tab n ref))) a len =
    norm_bad conj n bad (Z.of_nat a) (Z.of_nat (a + len) - 1) chk x ref.
  Proof.
    unfold checked, norm_bad. rewrite !inner_prod_tab.
    replace (chk <? Z.of_nat (a + len)) with (chk <=? Z.of_nat (a + len) - 1) by lia. reflexivity.
  Qed.

  (** ** DOS *)
  Definition dos_body (ns nt chk : Z) (wf0 corr : list E) : res (list E) :=
      bind (upd (fun c => sadd c (per inv ns (inner_prod conj wf0 wf0))) corr 0) (fun corr =>
      bind (cheb_wf_timestep img m bes wf0 true) (fun wt =>
      bind (upd (fun c => sadd c (per inv ns (inner_prod conj wf0 wt))) corr 1) (fun corr =>
      let ref := inner_prod conj wt wt in
      time_loop chk (fun wt => check_norm conj bad wt ref) (fun wt => cheb_wf_timestep img m bes wt true)
        (fun wt => Ok (fun c => sadd c (per inv ns (inner_prod conj wf0 wt)))) 0 2 nt wt corr))).
  Lemma dos_one ns (nt : nat) chk x f : (1 <= nt)%nat ->
    dos_body ns (Z.of_nat nt) chk (tab n x) (tab (nt + 1) f) =
    match one_fail 2 (Z.of_nat nt) chk (fun t => U t x) (U 1 x) with
    | None => Ok (tab (nt + 1) (fun t => sadd (f t) (per inv ns (dos_value conj img n h bes x t))))
    | Some e => Err e
    end.
  Proof.
    intros Hnt. unfold dos_body. rewrite upd_tab' by lia. cbn [bind]. change (tab n x) with (tab n (U 0 x)). rewrite step_U. cbn [bind].
    rewrite upd_tab' by lia. cbn [bind]. cbv zeta.
    destruct nt as [|len]; [lia|]. change 2 with (Z.of_nat (S 1)). replace (Z.of_nat (S len)) with (Z.of_nat (1 + len)) by lia.
    rewrite (time_loop_tab chk _ _ _ (fun k => tab n (U k x)) (fun k c => sadd c (per inv ns (inner_prod conj (tab n (U 0 x)) (tab n (U k x)))))
      (fun w => bad (inner_prod conj w w) (inner_prod conj (tab n (U 1 x)) (tab n (U 1 x)))) ltac:(intros; reflexivity) 0).
    - rewrite checked_bad. unfold one_fail. replace (Z.of_nat (2 + len) - 1) with (Z.of_nat (1 + len)) by lia.
      destruct (norm_bad _ _ _ _ _ _ _ _); [reflexivity|]. f_equal. apply tab_ext. intros j Hj.
      rewrite !inner_prod_tab. unfold dos_value. change (U 0 x) with x.
      destruct j as [|[|j]].
      + replace (Z.of_nat 0 =? 1) with false by lia. replace (Z.of_nat 0 =? 0) with true by lia.
        replace ((Z.of_nat 2 <=? Z.of_nat 0 + 0) && (Z.of_nat 0 + 0 <? Z.of_nat (2 + len))) with false by lia. reflexivity.
      + replace (Z.of_nat 1 =? 1) with true by lia. replace (Z.of_nat 1 =? 0) with false by lia.
        replace ((Z.of_nat 2 <=? Z.of_nat 1 + 0) && (Z.of_nat 1 + 0 <? Z.of_nat (2 + len))) with false by lia. reflexivity.
      + replace (Z.of_nat (S (S j)) =? 1) with false by lia. replace (Z.of_nat (S (S j)) =? 0) with false by lia.
        replace ((Z.of_nat 2 <=? Z.of_nat (S (S j)) + 0) && (Z.of_nat (S (S j)) + 0 <? Z.of_nat (2 + len))) with true by lia.
        replace (Z.to_nat (Z.of_nat (S (S j)) + 0)) with (S (S j)) by lia. reflexivity.
    - intros t _. apply step_U.
    - intros t. reflexivity.
    - lia.
    - lia.
    - lia.
  Qed.

  (** ** Local DOS *)
  Lemma select_loop (x : vector) sites : (forall s, In s sites -> 0 <= s < Z.of_nat n) -> forall g,
    loop (fun wf0 s => bind (rd (tab n x) s) (fun v => wr wf0 s v)) sites (tab n g) = Ok (tab n (fun i => if zmem (Z.of_nat i) sites then x i else g i)).
  Proof.
    induction sites as [|s r IH]; intros Hs g; [rewrite loop_nil; reflexivity|]. rewrite loop_cons.
    pose proof (Hs s (or_introl eq_refl)) as H. rewrite <- (Z2Nat.id s) by lia. rewrite rd_tab by lia. cbn [bind]. rewrite wr_tab by lia. cbn [bind].
    rewrite IH by (intros s' Hi; apply Hs; right; exact Hi). f_equal. apply tab_ext. intros i Hi. rewrite Z2Nat.id by lia.
    destruct (zmem (Z.of_nat i) r) eqn:Hr.
    - replace (zmem (Z.of_nat i) (s :: r)) with true; [reflexivity|]. symmetry. apply zmem_In. right. apply zmem_In. exact Hr.
    - destruct (Nat.eqb i (Z.to_nat s)) eqn:Hx.
      + apply Nat.eqb_eq in Hx. subst i. replace (zmem (Z.of_nat (Z.to_nat s)) (s :: r)) with true; [reflexivity|].
        symmetry. apply zmem_In. left. lia.
      + apply Nat.eqb_neq in Hx. replace (zmem (Z.of_nat i) (s :: r)) with false; [reflexivity|]. symmetry.
        destruct (zmem (Z.of_nat i) (s :: r)) eqn:Hc; [|reflexivity]. apply zmem_In in Hc. destruct Hc as [Hc|Hc]; [lia|]. apply zmem_In in Hc. congruence.
  Qed.
  Lemma select_ok x sites : (forall s, In s sites -> 0 <= s < Z.of_nat n) ->
    select_sites conj inv is0 sqrt sites (tab n x) =
    if is0 (site_norm sites x) then Err ZeroDivisionError else Ok (tab n (site_state sites x)).
  Proof.
    intros Hs. unfold select_sites. rewrite map_tab. rewrite (select_loop x sites Hs). cbn [bind]. rewrite inner_prod_tab. unfold pdiv.
    change (inner conj n (fun i => if zmem (Z.of_nat i) sites then x i else s0) (fun i => if zmem (Z.of_nat i) sites then x i else s0))
      with (inner conj n (on_sites sites x) (on_sites sites x)). fold (site_norm sites x).
    destruct (is0 (site_norm sites x)); [reflexivity|]. cbn [num]. rewrite map_tab. reflexivity.
  Qed.
  Definition ldos_body (sites : list Z) (ns nt chk : Z) (wft corr : list E) : res (list E) :=
      bind (select_sites conj inv is0 sqrt sites wft) (fun wf0 =>
      bind (upd (fun c => sadd c (per inv ns (inner_prod conj wf0 wf0))) corr 0) (fun corr =>
      let ref := inner_prod conj wf0 wf0 in
      time_loop chk (fun wt => check_norm conj bad wt ref) (fun wt => cheb_wf_timestep img m bes wt true)
        (fun wt => Ok (fun c => sadd c (per inv ns (inner_prod conj wf0 wt)))) 0 1 nt wf0 corr)).
  Lemma ldos_one sites ns (nt : nat) chk x f : (forall s, In s sites -> 0 <= s < Z.of_nat n) ->
    ldos_body sites ns (Z.of_nat nt) chk (tab n x) (tab (nt + 1) f) =
    match ldos_fail sites (Z.of_nat nt) chk x with
    | None => Ok (tab (nt + 1) (fun t => sadd (f t) (per inv ns (dos_value conj img n h bes (site_state sites x) t))))
    | Some e => Err e
    end.
  Proof.
    intros Hs. unfold ldos_body, ldos_fail. rewrite select_ok by exact Hs. destruct (is0 (site_norm sites x)); [reflexivity|]. cbn [bind].
    set (y := site_state sites x). rewrite upd_tab' by lia. cbn [bind]. cbv zeta. change (tab n y) with (tab n (U 0 y)).
    change 1 with (Z.of_nat (S 0)). change (Z.of_nat nt) with (Z.of_nat (0 + nt)).
    rewrite (time_loop_tab chk _ _ _ (fun k => tab n (U k y)) (fun k c => sadd c (per inv ns (inner_prod conj (tab n (U 0 y)) (tab n (U k y)))))
      (fun w => bad (inner_prod conj w w) (inner_prod conj (tab n (U 0 y)) (tab n (U 0 y)))) ltac:(intros; reflexivity) 0).
    - rewrite checked_bad. unfold one_fail. replace (Z.of_nat (1 + nt) - 1) with (Z.of_nat (0 + nt)) by lia. change (U 0 y) with y.
      destruct (norm_bad _ _ _ _ _ _ _ _); [reflexivity|]. f_equal. apply tab_ext. intros j Hj.
      rewrite !inner_prod_tab. unfold dos_value. change (U 0 y) with y.
      destruct j as [|j].
      + replace (Z.of_nat 0 =? 0) with true by lia.
        replace ((Z.of_nat 1 <=? Z.of_nat 0 + 0) && (Z.of_nat 0 + 0 <? Z.of_nat (1 + nt))) with false by lia. reflexivity.
      + replace (Z.of_nat (S j) =? 0) with false by lia.
        replace ((Z.of_nat 1 <=? Z.of_nat (S j) + 0) && (Z.of_nat (S j) + 0 <? Z.of_nat (1 + nt))) with true by lia.
        replace (Z.to_nat (Z.of_nat (S j) + 0)) with (S j) by lia. reflexivity.
    - intros t _. apply step_U.
    - intros t. reflexivity.
    - lia.
    - lia.
    - lia.
  Qed.

  (** ** AC conductivity *)
  Definition cur_mat (resc : E) (dr : list E) : nat -> nat -> E := cell (p_indptr m) (p_indices m) (current_values img resc (p_values m) dr).
  Lemma current_wf resc dr : length dr = length (p_indices m) -> wf n (current img m resc dr).
  Proof using Hwf.
    clear - Hwf. intros Hd. destruct Hwf as (H1 & H2 & H3 & H4). split; [exact H1|]. split; [|split; assumption].
    cbn [p_values p_indices current]. unfold current_coefficient, zip. rewrite map_length, combine_length. lia.
  Qed.
  Section AC.
  Context (resc : E) (dx dy : list E) (Hdx : length dx = length (p_indices m)) (Hdy : length dy = length (p_indices m)).
  Context (cF cO : list E) (HcF : (3 <= length cF)%nat) (HcO : (3 <= length cO)%nat).
  Notation jx := (mv n (cur_mat resc dx)).
  Notation jy := (mv n (cur_mat resc dy)).
  Notation ac_value := (ac_value conj img n h bes (cur_mat resc dx) (cur_mat resc dy) cF cO).
  Definition ac_body (ns nt chk : Z) (wf0 : list E) (corr : list (list E)) : res (list (list E)) :=
      bind (csr_mv (current img m resc dx) wf0) (fun px => bind (csr_mv (current img m resc dy) wf0) (fun py =>
      bind (fermi_op m cO px) (fun px => bind (fermi_op m cO py) (fun py =>
      bind (fermi_op m cF wf0) (fun p2 =>
      bind (four conj (current img m resc dx) (current img m resc dy) px py p2) (fun _ =>
      let ref := inner_prod conj p2 p2 in
      time_loop chk (fun w : list E * list E * list E => check_norm conj bad (snd w) ref)
        (fun w => let '(px, py, p2) := w in
           bind (cheb_wf_timestep img m bes px true) (fun px => bind (cheb_wf_timestep img m bes py true) (fun py => bind (cheb_wf_timestep img m bes p2 true) (fun p2 => Ok (px, py, p2)))))
        (fun w => let '(px, py, p2) := w in
           bind (four conj (current img m resc dx) (current img m resc dy) px py p2) (fun v => Ok (fun c => zip sadd c (map (per inv ns) v)))) 1 2 nt (px, py, p2) corr)))))).
  Lemma four_tab u v w : four conj (current img m resc dx) (current img m resc dy) (tab n u) (tab n v) (tab n w) =
    Ok (tab 4 (fun c => inner conj n w ((if Nat.even c then jx else jy) (if (c <? 2)%nat then u else v)))).
  Proof.
    unfold four. rewrite (csr_mv_tab EL _ n (current_wf _ _ Hdx)). cbn [bind]. rewrite (csr_mv_tab EL _ n (current_wf _ _ Hdy)). cbn [bind].
    rewrite (csr_mv_tab EL _ n (current_wf _ _ Hdx)). cbn [bind]. rewrite (csr_mv_tab EL _ n (current_wf _ _ Hdy)). cbn [bind]. rewrite !inner_prod_tab. reflexivity.
  Qed.
  Lemma ac_one ns (nt : nat) chk x (f : nat * nat -> E) :
    ac_body ns (Z.of_nat nt) chk (tab n x) (tab nt (fun t => tab 4 (fun c => f (t, c)))) =
    match one_fail 2 (Z.of_nat nt) chk (fun t => U (t - 1) (op_series n h cF x)) (op_series n h cF x) with
    | None => Ok (tab nt (fun t => tab 4 (fun c => sadd (f (t, c)) (per inv ns (ac_value x t c)))))
    | Some e => Err e
    end.
  Proof.
    unfold ac_body. rewrite (csr_mv_tab EL _ n (current_wf _ _ Hdx)). cbn [bind]. rewrite (csr_mv_tab EL _ n (current_wf _ _ Hdy)). cbn [bind].
    rewrite (fermi_tab EL m n Hwf) by assumption. cbn [bind]. rewrite (fermi_tab EL m n Hwf) by assumption. cbn [bind].
    rewrite (fermi_tab EL m n Hwf) by assumption. cbn [bind]. change (mat_of (current img m resc dx)) with (cur_mat resc dx). change (mat_of (current img m resc dy)) with (cur_mat resc dy).
    fold (op_series n h cO (jx x)). fold (op_series n h cO (jy x)). fold (op_series n h cF x).
    set (u := op_series n h cO (jx x)). set (v := op_series n h cO (jy x)). set (w := op_series n h cF x).
    rewrite four_tab. cbn [bind]. cbv zeta.
    set (st := fun k => (tab n (U (k - 1) u), tab n (U (k - 1) v), tab n (U (k - 1) w))).
    destruct nt as [|len].
    - unfold one_fail, norm_bad. replace ((2 <=? chk) && (chk <=? Z.of_nat 0)) with false by lia. reflexivity.
    - change (tab n u, tab n v, tab n w) with (st 1%nat). change 2 with (Z.of_nat (S 1)). replace (Z.of_nat (S len)) with (Z.of_nat (1 + len)) by lia.
      rewrite (time_loop_tab chk _ _ _ st
        (fun k c => zip sadd c (map (per inv ns) (tab 4 (fun c => inner conj n (U (k - 1) w) ((if Nat.even c then jx else jy) (if (c <? 2)%nat then U (k - 1) u else U (k - 1) v))))))
        (fun w0 => bad (inner_prod conj (snd w0) (snd w0)) (inner_prod conj (tab n w) (tab n w))) ltac:(intros; reflexivity) 1).
      + replace (checked chk st _ 2 len) with (norm_bad conj n bad (Z.of_nat 2) (Z.of_nat (1 + len)) chk (fun t => U (t - 1) w) w).
        2:{ unfold checked, norm_bad, st. cbn [snd]. rewrite !inner_prod_tab. replace (chk <? Z.of_nat (2 + len)) with (chk <=? Z.of_nat (1 + len)) by lia. reflexivity. }
        unfold one_fail. destruct (norm_bad _ _ _ _ _ _ _ _); [reflexivity|]. f_equal. apply tab_ext. intros j Hj.
        destruct j as [|j].
        * replace ((Z.of_nat 2 <=? Z.of_nat 0 + 1) && (Z.of_nat 0 + 1 <? Z.of_nat (2 + len))) with false by lia. apply tab_ext. intros c _.
          unfold ac_value, per. ring.
        * replace ((Z.of_nat 2 <=? Z.of_nat (S j) + 1) && (Z.of_nat (S j) + 1 <? Z.of_nat (2 + len))) with true by lia.
          replace (Z.to_nat (Z.of_nat (S j) + 1)) with (S (S j)) by lia. rewrite map_tab, zip_tab. apply tab_ext. intros c Hc.
          unfold ac_value, two_time. replace (S (S j) - 1)%nat with (S j) by lia.
          unfold u, v. destruct (c <? 2)%nat, (Nat.even c); reflexivity.
      + intros t Ht. unfold st. repeat (rewrite step_U; cbn [bind]). replace (S (t - 1)) with (S t - 1)%nat by lia. reflexivity.
      + intros t. unfold st. rewrite four_tab. reflexivity.
      + lia.
      + lia.
      + lia.
  Qed.
  End AC.

  (** ** Dynamical polarization *)
  Section Pol.
  Context (cF cO : list E) (HcF : (3 <= length cF)%nat) (HcO : (3 <= length cO)%nat).
  Context (rho rhom : vector).
  Notation pol_value := (pol_value conj img im n h bes cF cO rho rhom).
  Definition pol_body (ns nt chk : Z) (wf0 corr : list E) : res (list E) :=
      bind (fermi_op m cO (pmul (tab n rhom) wf0)) (fun p1 =>
      bind (fermi_op m cF wf0) (fun p2 =>
      bind (upd (fun c => sadd c (per inv ns (im (inner_prod conj p2 (pmul (tab n rho) p1))))) corr 0) (fun corr =>
      let ref := inner_prod conj p2 p2 in
      time_loop chk (fun w : list E * list E => check_norm conj bad (snd w) ref)
        (fun w => bind (cheb_wf_timestep img m bes (fst w) true) (fun p1 => bind (cheb_wf_timestep img m bes (snd w) true) (fun p2 => Ok (p1, p2))))
        (fun w => Ok (fun c => sadd c (per inv ns (im (inner_prod conj (snd w) (pmul (tab n rho) (fst w))))))) 1 2 nt (p1, p2) corr))).
  Lemma pmul_tab r x : pmul (tab n r) (tab n x) = tab n (times r x).
  Proof. unfold pmul. rewrite zip_tab. reflexivity. Qed.
  Lemma pol_one ns (nt : nat) chk x f : (1 <= nt)%nat ->
    pol_body ns (Z.of_nat nt) chk (tab n x) (tab nt f) =
    match one_fail 2 (Z.of_nat nt) chk (fun t => U (t - 1) (op_series n h cF x)) (op_series n h cF x) with
    | None => Ok (tab nt (fun t => sadd (f t) (per inv ns (pol_value x t))))
    | Some e => Err e
    end.
  Proof.
    intros Hnt. unfold pol_body. rewrite pmul_tab. rewrite (fermi_tab EL m n Hwf) by assumption. cbn [bind].
    rewrite (fermi_tab EL m n Hwf) by assumption. cbn [bind]. rewrite upd_tab' by lia. cbn [bind]. cbv zeta.
    fold (op_series n h cO (times rhom x)). fold (op_series n h cF x).
    set (u := op_series n h cO (times rhom x)). set (w := op_series n h cF x).
    set (st := fun k => (tab n (U (k - 1) u), tab n (U (k - 1) w))).
    destruct nt as [|len]; [lia|].
    change (tab n u, tab n w) with (st 1%nat). change 2 with (Z.of_nat (S 1)). replace (Z.of_nat (S len)) with (Z.of_nat (1 + len)) by lia.
    rewrite (time_loop_tab chk _ _ _ st
        (fun k c => sadd c (per inv ns (im (inner_prod conj (snd (st k)) (pmul (tab n rho) (fst (st k)))))))
        (fun w0 => bad (inner_prod conj (snd w0) (snd w0)) (inner_prod conj (tab n w) (tab n w))) ltac:(intros; reflexivity) 1).
    - replace (checked chk st _ 2 len) with (norm_bad conj n bad (Z.of_nat 2) (Z.of_nat (1 + len)) chk (fun t => U (t - 1) w) w).
      2:{ unfold checked, norm_bad, st. cbn [snd]. rewrite !inner_prod_tab. replace (chk <? Z.of_nat (2 + len)) with (chk <=? Z.of_nat (1 + len)) by lia. reflexivity. }
      unfold one_fail. destruct (norm_bad _ _ _ _ _ _ _ _); [reflexivity|]. f_equal. apply tab_ext. intros j Hj.
      unfold st. cbn [fst snd]. rewrite !pmul_tab, !inner_prod_tab.
      destruct j as [|j].
      + replace ((Z.of_nat 2 <=? Z.of_nat 0 + 1) && (Z.of_nat 0 + 1 <? Z.of_nat (2 + len))) with false by lia. reflexivity.
      + replace ((Z.of_nat 2 <=? Z.of_nat (S j) + 1) && (Z.of_nat (S j) + 1 <? Z.of_nat (2 + len))) with true by lia.
        replace (Z.of_nat (S j) =? 0) with false by lia.
        replace (Z.to_nat (Z.of_nat (S j) + 1)) with (S (S j)) by lia. replace (S (S j) - 1)%nat with (S j) by lia. reflexivity.
    - intros t Ht. unfold st. cbn [fst snd]. repeat (rewrite step_U; cbn [bind]). replace (S (t - 1)) with (S t - 1)%nat by lia. reflexivity.
    - intros t. reflexivity.
    - lia.
    - lia.
    - lia.
  Qed.
  End Pol.
End One.
