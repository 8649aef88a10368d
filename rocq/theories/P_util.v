(** C46, C52, C61: timer, progress bar, random seeds, configuration. *)
From Coq Require Import String Permutation.
From Verif Require Import Prelude L_base S_util M_util.
Open Scope Z_scope.

(** ** C46: timer *)
(** Calls for one slot since the last reset; slots in the order of their first tic. *)
Definition slot_evs (s : string) (cs : list tcall) : list ev :=
  fold_left (fun acc c => match c with
    | Tic s' t => if String.eqb s s' then acc ++ [On t] else acc
    | Toc s' t => if String.eqb s s' then acc ++ [Off t] else acc
    | Reset => [] end) cs [].
Definition slots_of (cs : list tcall) : list string :=
  fold_left (fun acc c => match c with
    | Tic s _ => if existsb (String.eqb s) acc then acc else acc ++ [s]
    | Toc _ _ => acc
    | Reset => [] end) cs [].

Definition last_on (l : list ev) : option Z := match rev l with On a :: _ => Some a | _ => None end.
Lemma last_on_cons x y l : last_on (x :: y :: l) = last_on (y :: l).
Proof. unfold last_on. cbn [rev]. destruct (rev l); reflexivity. Qed.
Lemma spent_on l t : spent (l ++ [On t]) = spent l.
Proof. induction l as [|x [|y r] IH]; [reflexivity|destruct x; reflexivity|]. cbn [app] in *. destruct x, y; cbn [spent] in *; rewrite ?IH; lia. Qed.
Lemma spent_off l t : spent (l ++ [Off t]) = spent l + match last_on l with Some a => t - a | None => 0 end.
Proof.
  induction l as [|x [|y r] IH]; [reflexivity|destruct x; cbn; lia|]. rewrite last_on_cons. cbn [app] in *. destruct x, y; cbn [spent] in *; rewrite ?IH; lia.
Qed.
Lemma lspent_on l t : last_spent (l ++ [On t]) = last_spent l.
Proof. induction l as [|x [|y r] IH]; [reflexivity|destruct x; reflexivity|]. cbn [app] in *. destruct x, y; cbn [last_spent] in *; rewrite ?IH; reflexivity. Qed.
Lemma lspent_off l t : last_spent (l ++ [Off t]) = match last_on l with Some a => Some (t - a) | None => last_spent l end.
Proof.
  induction l as [|x [|y r] IH]; [reflexivity|destruct x; reflexivity|]. rewrite last_on_cons. cbn [app] in *. destruct x, y; cbn [last_spent] in *; rewrite ?IH;
  destruct (last_on _); reflexivity.
Qed.
Lemma lspent_none l : last_spent l = None -> spent l = 0.
Proof. induction l as [|x [|y r] IH]; [reflexivity|destruct x; reflexivity|]. destruct x, y; cbn [last_spent spent] in *; try exact IH. destruct (last_spent _); discriminate. Qed.
Lemma running_last l : running l = match last_on l with Some _ => true | None => false end.
Proof. unfold running, last_on. destruct (rev l) as [|[]]; reflexivity. Qed.
Lemma last_on_snoc l e : last_on (l ++ [e]) = match e with On t => Some t | Off _ => None end.
Proof. unfold last_on. rewrite rev_app_distr. destruct e; reflexivity. Qed.
Lemma starts_snoc l e : starts (l ++ [e]) = starts l || match e with On _ => true | Off _ => false end.
Proof. unfold starts. rewrite existsb_app. cbn. rewrite orb_false_r. reflexivity. Qed.
Lemma running_starts l : running l = true -> starts l = true.
Proof. unfold running, starts. intros H. destruct (rev l) as [|[t|] r] eqn:E; try discriminate. apply existsb_exists. exists (On t). split; [|reflexivity]. apply in_rev. rewrite E. left. reflexivity. Qed.
Lemma not_running_spent l : starts l = true -> running l = false -> last_spent l <> None.
Proof.
  induction l as [|x [|y r] IH]; [discriminate|destruct x; discriminate|]. intros Hs Hr.
  assert (Hr' : running (y :: r) = false) by (rewrite running_last in *; rewrite last_on_cons in Hr; exact Hr).
  destruct x, y; cbn [last_spent]; try (destruct (last_spent _) eqn:E; congruence).
  - apply IH; [reflexivity|exact Hr'].
  - apply IH; [reflexivity|exact Hr'].
  - apply IH; [exact Hs|exact Hr'].
Qed.

Lemma aget_sset {V} (d : list (string * V)) k v k' : aget String.eqb (aset String.eqb d k v) k' = if String.eqb k' k then Some v else aget String.eqb d k'.
Proof.
  induction d as [|[k0 v0] d IH]; cbn [aset aget]; [reflexivity|]. destruct (String.eqb_spec k k0) as [->|H]; cbn [aget].
  - destruct (String.eqb k' k0); reflexivity.
  - rewrite IH. destruct (String.eqb_spec k' k0) as [->|H']; [|reflexivity]. destruct (String.eqb_spec k0 k); congruence.
Qed.
Lemma keys_sset {V} (d : list (string * V)) k v : keys (aset String.eqb d k v) = if existsb (String.eqb k) (keys d) then keys d else keys d ++ [k].
Proof.
  induction d as [|[k0 v0] d IH]; [reflexivity|]. cbn [aset keys map fst existsb]. destruct (String.eqb_spec k k0) as [->|H]; [reflexivity|]. cbn [orb map fst app].
  unfold keys in *. rewrite IH. destruct (existsb _ _); reflexivity.
Qed.

Definition timer_inv (t : timer) (cs : list tcall) : Prop :=
  keys (start_time t) = slots_of cs /\
  forall s, let l := slot_evs s cs in
    aget String.eqb (track_status t) s = (if starts l then Some (running l) else None) /\
    (forall a, last_on l = Some a -> aget String.eqb (start_time t) s = Some a) /\
    aget String.eqb (time_usage t) s = last_spent l /\
    aget String.eqb (total_usage t) s = (match last_spent l with None => None | Some _ => Some (spent l) end) /\
    existsb (String.eqb s) (slots_of cs) = starts l.
Lemma timer_ok cs : timer_inv (trun cs) cs.
Proof.
  unfold trun. apply rev_ind with (P := fun cs => timer_inv (fold_left (fun t c => fst (tstep t c)) cs new_timer) cs).
  { split; [reflexivity|]. intros s. cbn. repeat split; discriminate. }
  clear cs. intros c cs IH. rewrite fold_left_app. cbn [fold_left]. set (t := fold_left _ cs new_timer) in *. clearbody t. destruct IH as (Hk & IH).
  assert (HR : forall s, slot_evs s (cs ++ [c]) = match c with Tic s' t => if String.eqb s s' then slot_evs s cs ++ [On t] else slot_evs s cs
    | Toc s' t => if String.eqb s s' then slot_evs s cs ++ [Off t] else slot_evs s cs | Reset => [] end) by (intros s; unfold slot_evs; rewrite fold_left_app; reflexivity).
  assert (HS : slots_of (cs ++ [c]) = match c with Tic s _ => if existsb (String.eqb s) (slots_of cs) then slots_of cs else slots_of cs ++ [s] | Toc _ _ => slots_of cs | Reset => [] end)
    by (unfold slots_of; rewrite fold_left_app; reflexivity).
  unfold timer_inv. rewrite HS. destruct c as [s0 now|s0 now|]; cbn [tstep fst].
  - split; [cbn [tic start_time]; rewrite keys_sset, Hk; reflexivity|]. intros s. cbv zeta. rewrite HR. destruct (IH s) as (h1 & h2 & h3 & h4 & h5). cbn [tic start_time track_status time_usage total_usage].
    rewrite !aget_sset. destruct (String.eqb_spec s s0) as [->|Hne].
    + rewrite starts_snoc, orb_true_r, running_last, last_on_snoc, lspent_on, spent_on. split; [reflexivity|]. split; [intros a Ha; exact Ha|]. split; [exact h3|]. split; [exact h4|].
      rewrite h5. destruct (starts (slot_evs s0 cs)) eqn:E; [exact h5|]. rewrite existsb_app. cbn. rewrite String.eqb_refl. apply orb_true_r.
    + repeat split; auto. destruct (existsb (String.eqb s0) (slots_of cs)); [exact h5|]. rewrite existsb_app, h5. cbn. destruct (String.eqb_spec s s0); [congruence|]. rewrite !orb_false_r. reflexivity.
  - unfold toc. destruct (IH s0) as (g1 & g2 & g3 & g4 & g5). rewrite g1. rewrite running_last in *.
    assert (He : match (if starts (slot_evs s0 cs) then Some (match last_on (slot_evs s0 cs) with Some _ => true | None => false end) else None) with Some b => b | None => false end =
                 match last_on (slot_evs s0 cs) with Some _ => true | None => false end).
    { destruct (starts (slot_evs s0 cs)) eqn:E; [reflexivity|]. destruct (last_on (slot_evs s0 cs)) eqn:E2; [|reflexivity].
      assert (running (slot_evs s0 cs) = true) by (rewrite running_last, E2; reflexivity). apply running_starts in H. congruence. }
    rewrite He. destruct (last_on (slot_evs s0 cs)) as [a|] eqn:El; cbn [negb].
    + rewrite (g2 a eq_refl). cbn [fst start_time track_status time_usage total_usage]. split; [exact Hk|]. intros s. cbv zeta. rewrite HR, !aget_sset. destruct (IH s) as (h1 & h2 & h3 & h4 & h5).
      destruct (String.eqb_spec s s0) as [->|Hne]; [|repeat split; auto].
      assert (Hst : starts (slot_evs s0 cs) = true) by (apply running_starts; rewrite running_last, El; reflexivity).
      rewrite starts_snoc, Hst, running_last, last_on_snoc, lspent_off, spent_off, El. cbn [orb]. split; [reflexivity|]. split; [discriminate|]. split; [reflexivity|]. split; [|rewrite h5; exact Hst].
      rewrite g4. destruct (last_spent (slot_evs s0 cs)) eqn:E3; [reflexivity|]. rewrite (lspent_none _ E3). reflexivity.
    + cbn [fst]. split; [exact Hk|]. intros s. cbv zeta. rewrite HR. destruct (IH s) as (h1 & h2 & h3 & h4 & h5). destruct (String.eqb_spec s s0) as [->|Hne]; [|repeat split; auto].
      rewrite starts_snoc, running_last, last_on_snoc, lspent_off, spent_off, El, Z.add_0_r, orb_false_r. split; [rewrite h1, running_last, El; reflexivity|]. split; [discriminate|]. auto.
  - split; [reflexivity|]. intros s. cbv zeta. rewrite HR. cbn. repeat split; discriminate.
Qed.

(** toc succeeds exactly if the slot's last call since the reset is tic;
    otherwise it raises RuntimeError and changes nothing. *)
Theorem C46_toc : forall cs s now,
  snd (toc (trun cs) s now) = (if running (slot_evs s cs) then Ok tt else Err RuntimeError) /\
  (running (slot_evs s cs) = false -> fst (toc (trun cs) s now) = trun cs).
Proof.
  intros cs s now. destruct (timer_ok cs) as (_ & H). destruct (H s) as (h1 & h2 & _). unfold toc. rewrite h1. rewrite running_last in *. destruct (last_on (slot_evs s cs)) as [a|] eqn:E.
  - assert (Hst : starts (slot_evs s cs) = true) by (apply running_starts; rewrite running_last, E; reflexivity). rewrite Hst, (h2 a eq_refl). cbn. split; [reflexivity|discriminate].
  - destruct (starts _); cbn; auto.
Qed.
Print Assumptions C46_toc.

Fixpoint before_running (cs : list tcall) (slots : list string) : list string :=
  match slots with [] => [] | s :: r => if running (slot_evs s cs) then [] else s :: before_running cs r end.
Lemma report_ok cs get (val : list ev -> Z) slots : (forall s, starts (slot_evs s cs) = true -> running (slot_evs s cs) = false -> get s = Some (val (slot_evs s cs))) ->
  (forall s, In s slots -> starts (slot_evs s cs) = true) ->
  report_slots (trun cs) get slots =
  (map (fun s => (s, val (slot_evs s cs))) (before_running cs slots), if existsb (fun s => running (slot_evs s cs)) slots then Err RuntimeError else Ok tt).
Proof.
  intros Hg Hs. destruct (timer_ok cs) as (_ & H). induction slots as [|s r IH]; [reflexivity|]. cbn [report_slots before_running existsb]. destruct (H s) as (h1 & _). rewrite h1.
  rewrite (Hs s (or_introl eq_refl)). destruct (running (slot_evs s cs)) eqn:Er; [reflexivity|]. rewrite (Hg s (Hs s (or_introl eq_refl)) Er). cbn [orb].
  rewrite IH by (intros x Hx; apply Hs; right; exact Hx). reflexivity.
Qed.
Lemma slots_start cs s : In s (slots_of cs) -> starts (slot_evs s cs) = true.
Proof. intros Hi. destruct (timer_ok cs) as (_ & H). destruct (H s) as (_ & _ & _ & _ & h). rewrite <- h. apply existsb_exists. exists s. split; [exact Hi|apply String.eqb_refl]. Qed.
(** The total report: the sum of all intervals of every slot, in the order of
    first use, up to the first slot that is still running. *)
Theorem C46_report_total : forall cs, report_total_time (trun cs) =
  (map (fun s => (s, spent (slot_evs s cs))) (before_running cs (slots_of cs)), if existsb (fun s => running (slot_evs s cs)) (slots_of cs) then Err RuntimeError else Ok tt).
Proof.
  intros cs. unfold report_total_time. destruct (timer_ok cs) as (Hk & H). rewrite Hk. apply report_ok; [|intros s; apply slots_start].
  intros s Hs Hr. destruct (H s) as (_ & _ & _ & h4 & _). rewrite h4. destruct (last_spent (slot_evs s cs)) eqn:E; [reflexivity|]. rewrite (lspent_none _ E). reflexivity.
Qed.
Print Assumptions C46_report_total.
Theorem C46_report : forall cs, report_time (trun cs) =
  (map (fun s => (s, match last_spent (slot_evs s cs) with Some x => x | None => 0 end)) (before_running cs (slots_of cs)), if existsb (fun s => running (slot_evs s cs)) (slots_of cs) then Err RuntimeError else Ok tt).
Proof.
  intros cs. unfold report_time. destruct (timer_ok cs) as (Hk & H). rewrite Hk. apply (report_ok cs _ (fun l => match last_spent l with Some x => x | None => 0 end)); [|intros s; apply slots_start].
  intros s Hs Hr. destruct (H s) as (_ & _ & h3 & _). rewrite h3. pose proof (not_running_spent _ Hs Hr). destruct (last_spent (slot_evs s cs)); congruence.
Qed.
Print Assumptions C46_report.
Example C46_timer_example :
  let cs := [Tic "a" 1; Tic "b" 2; Toc "a" 5; Toc "a" 6; Toc "b" 9; Tic "a" 10; Toc "a" 11]%string in
  report_total_time (trun cs) = ([("a", 5); ("b", 7)]%string, Ok tt) /\ report_time (trun cs) = ([("a", 1); ("b", 7)]%string, Ok tt) /\ snd (toc (trun cs) "a" 12) = Err RuntimeError.
Proof. repeat split. Qed.
(** A second tic discards the time since the first one. *)
Theorem C46_tic_twice : forall a b c, report_total_time (trun [Tic "s" a; Tic "s" b; Toc "s" c]) = ([("s"%string, c - b)], Ok tt).
Proof. intros a b c. rewrite C46_report_total. cbn. rewrite Z.add_0_r. reflexivity. Qed.
Print Assumptions C46_tic_twice.

(** ** C46: progress bar *)
Definition upto (m : nat) : list Z := map Z.of_nat (seq 1 m).
Lemma upto_S m : upto (S m) = upto m ++ [Z.of_nat (S m)].
Proof. unfold upto. rewrite seq_S, map_app. reflexivity. Qed.
(** With at least as many tasks as scales, exactly the multiples of
    tasks // scales are reported. *)
Theorem C46_bar : forall tasks scales b m, 0 < scales <= tasks -> new_bar tasks scales = Ok b ->
  snd (counts m b) = filter (fun c => c mod (tasks / scales) =? 0) (upto m).
Proof.
  intros tasks scales b m Hs Hb. unfold new_bar in Hb. replace (scales =? 0) with false in Hb by lia. injection Hb as <-.
  assert (Hu : 1 <= tasks / scales) by (apply Z.div_le_lower_bound; lia). set (u := tasks / scales) in *. clearbody u.
  assert (H : counts m {| num_tasks := tasks; scale_unit := u; next_scale := u; counter := 0 |} =
    ({| num_tasks := tasks; scale_unit := u; next_scale := u * (Z.of_nat m / u + 1); counter := Z.of_nat m |}, filter (fun c => c mod u =? 0) (upto m))).
  { induction m as [|m IH].
    - change (Z.of_nat 0) with 0. rewrite Z.div_0_l by lia. cbn [counts]. rewrite Z.mul_add_distr_l, Z.mul_0_r, Z.mul_1_r. reflexivity.
    - cbn [counts]. rewrite IH. unfold count. cbn [num_tasks scale_unit next_scale counter]. rewrite upto_S, filter_app. cbn [filter].
      replace (Z.of_nat m + 1) with (Z.of_nat (S m)) by lia.
      pose proof (Z.div_mod (Z.of_nat m) u ltac:(lia)) as D. pose proof (Z.mod_pos_bound (Z.of_nat m) u ltac:(lia)) as B.
      set (q := Z.of_nat m / u) in *. set (r := Z.of_nat m mod u) in *.
      destruct (Z.leb_spec (u * (q + 1)) (Z.of_nat (S m))) as [h|h].
      + assert (Hr : r = u - 1) by nia. assert (Hd : Z.of_nat (S m) / u = q + 1) by (symmetry; apply (Z.div_unique _ _ _ 0); nia).
        assert (Hm : Z.of_nat (S m) mod u = 0) by (symmetry; apply (Z.mod_unique _ _ (q + 1)); nia). rewrite Hd, Hm. cbn [Z.eqb]. replace (tasks =? 0) with false by lia.
        f_equal. f_equal. ring.
      + assert (Hd : Z.of_nat (S m) / u = q) by (symmetry; apply (Z.div_unique _ _ _ (r + 1)); nia).
        assert (Hm : Z.of_nat (S m) mod u = r + 1) by (symmetry; apply (Z.mod_unique _ _ q); nia). rewrite Hd, Hm. replace (r + 1 =? 0) with false by lia. rewrite app_nil_r. reflexivity. }
  rewrite H. reflexivity.
Qed.
Print Assumptions C46_bar.
(** With fewer tasks than scales every task is reported. *)
Theorem C46_bar_few : forall tasks scales b m, 0 < tasks < scales -> new_bar tasks scales = Ok b -> snd (counts m b) = upto m.
Proof.
  intros tasks scales b m Hs Hb. unfold new_bar in Hb. replace (scales =? 0) with false in Hb by lia. injection Hb as <-. rewrite Z.div_small by lia.
  assert (H : counts m {| num_tasks := tasks; scale_unit := 0; next_scale := 0; counter := 0 |} = ({| num_tasks := tasks; scale_unit := 0; next_scale := 0; counter := Z.of_nat m |}, upto m)).
  { induction m as [|m IH]; [reflexivity|]. cbn [counts]. rewrite IH. unfold count. cbn [num_tasks scale_unit next_scale counter]. replace (0 <=? Z.of_nat m + 1) with true by lia.
    replace (tasks =? 0) with false by lia. rewrite upto_S. replace (Z.of_nat m + 1) with (Z.of_nat (S m)) by lia. reflexivity. }
  rewrite H. reflexivity.
Qed.
Print Assumptions C46_bar_few.
Example C46_bar_example : exists b, new_bar 50 10 = Ok b /\ snd (counts 50 b) = [5; 10; 15; 20; 25; 30; 35; 40; 45; 50].
Proof. eexists. split; reflexivity. Qed.
(** The number of reports is not the number of scales. *)
Theorem C46_bar_scales_refuted : exists tasks scales b, 0 < scales <= tasks /\ new_bar tasks scales = Ok b /\ Z.of_nat (length (snd (counts (Z.to_nat tasks) b))) = tasks /\ tasks <> scales.
Proof. exists 19, 10. eexists. split; [lia|]. split; [reflexivity|]. split; [reflexivity|lia]. Qed.
Print Assumptions C46_bar_scales_refuted.

(** ** C61 *)
Lemma seeds_inv draws : forall acc, NoDup acc ->
  let out := fold_left (fun seeds d => let r := from_bytes (fst d) (snd d) in if zmem r seeds then seeds else seeds ++ [r]) draws acc in
  NoDup out /\ (forall x, In x out <-> In x acc \/ exists d, In d draws /\ x = from_bytes (fst d) (snd d)) /\ (length out <= length acc + length draws)%nat.
Proof.
  induction draws as [|d ds IH]; intros acc Hn; cbn [fold_left].
  - cbn. split; [exact Hn|]. split; [|lia]. intros x. split; [auto|]. intros [|(d & [] & _)]; assumption.
  - set (r := from_bytes (fst d) (snd d)). cbv zeta. destruct (zmem r acc) eqn:E.
    + destruct (IH acc Hn) as (h1 & h2 & h3). cbv zeta in h1, h2, h3. split; [exact h1|]. split; [|cbn [length]; lia]. intros x. rewrite h2. apply zmem_In in E. split.
      * intros [|(d' & Hi & ->)]; [auto|right; exists d'; cbn; auto].
      * intros [|(d' & [<-|Hi] & ->)]; [auto|left; exact E|right; eauto].
    + assert (Hn' : NoDup (acc ++ [r])).
      { apply (Permutation.Permutation_NoDup (l := r :: acc)); [apply Permutation.Permutation_cons_append|]. constructor; [|exact Hn]. intros Hi. apply zmem_In in Hi. congruence. }
      destruct (IH _ Hn') as (h1 & h2 & h3). cbv zeta in h1, h2, h3. split; [exact h1|]. split; [|rewrite app_length in h3; cbn [length] in *; lia]. intros x. rewrite h2, in_app_iff. cbn. split.
      * intros [[|[<-|[]]]|(d' & Hi & ->)]; [auto|right; exists d; auto|right; exists d'; auto].
      * intros [|(d' & [<-|Hi] & ->)]; [auto|left; right; left; reflexivity|right; eauto].
Qed.

Definition is_byte (b : Z) : Prop := 0 <= b < 256.
Lemma bytes_val bs : Forall is_byte bs -> forall acc, 0 <= acc -> acc * 256 ^ Z.of_nat (length bs) <= fold_left (fun a b => a * 256 + b) bs acc < (acc + 1) * 256 ^ Z.of_nat (length bs).
Proof.
  induction 1 as [|b bs Hb Hbs IH]; intros acc Ha; cbn [fold_left length]; [cbn; lia|]. specialize (IH (acc * 256 + b) ltac:(unfold is_byte in Hb; lia)).
  rewrite Nat2Z.inj_succ, Z.pow_succ_r by lia. pose proof (Z.pow_pos_nonneg 256 (Z.of_nat (length bs)) ltac:(lia) ltac:(lia)) as Hp. unfold is_byte in Hb. nia.
Qed.
(** Distinct seeds, one for every different draw, each in the range of its
    number of bytes. *)
Theorem C61_seeds : forall draws, NoDup (gen_seeds draws) /\
  (forall x, In x (gen_seeds draws) <-> exists d, In d draws /\ x = from_bytes (fst d) (snd d)) /\ (length (gen_seeds draws) <= length draws)%nat.
Proof.
  intros draws. destruct (seeds_inv draws [] (NoDup_nil _)) as (h1 & h2 & h3). split; [exact h1|]. split; [|exact h3]. intros x. unfold gen_seeds. rewrite h2. cbn. intuition.
Qed.
Print Assumptions C61_seeds.
Theorem C61_range : forall big bs, Forall is_byte bs -> bs <> [] ->
  - 2 ^ (8 * Z.of_nat (length bs) - 1) <= from_bytes big bs < 2 ^ (8 * Z.of_nat (length bs) - 1).
Proof.
  intros big bs Hb Hne. unfold from_bytes. set (l := if big then bs else rev bs).
  assert (Hl : length l = length bs) by (unfold l; destruct big; [reflexivity|apply rev_length]).
  assert (Hf : Forall is_byte l) by (unfold l; destruct big; [exact Hb|apply Forall_rev; exact Hb]).
  pose proof (bytes_val l Hf 0 ltac:(lia)) as B. rewrite Hl in B. set (v := fold_left _ l 0) in *. clearbody v. clear l Hl Hf.
  assert (Hn : (1 <= length bs)%nat) by (destruct bs; [congruence|cbn; lia]). set (n := Z.of_nat (length bs)) in *. assert (1 <= n) by lia.
  assert (H1 : 256 ^ n = 2 ^ (8 * n)) by (rewrite Z.pow_mul_r by lia; reflexivity).
  assert (H2 : 2 ^ (8 * n) = 2 * 2 ^ (8 * n - 1)) by (rewrite <- Z.pow_succ_r by lia; f_equal; lia). rewrite H1, H2 in *.
  destruct (Z.ltb_spec v (2 ^ (8 * n - 1))); lia.
Qed.
Print Assumptions C61_range.
Example C61_example : gen_seeds [(true, [1; 2]); (false, [1; 2]); (true, [255]); (false, [255; 255]); (true, [1; 2])] = [258; 513; -1].
Proof. reflexivity. Qed.
(** Fewer seeds than asked for if two draws agree. *)
Theorem C61_number_refuted : exists draws, (length (gen_seeds draws) < length draws)%nat.
Proof. exists [(true, [7]); (false, [7])]. cbn. lia. Qed.
Print Assumptions C61_number_refuted.

(** ** C52 *)
Section Conf.
  Context {V : Type} (default : group -> string -> V).
  Inductive cop := SetParam (g : group) (k : string) (v : V) | DelParam (g : group) (k : string) | SetGroup (g : group) (d : list (string * V)).
  Definition cstep (c : config) (o : cop) : config :=
    match o with SetParam g k v => set_param c g k v | DelParam g k => del_param c g k | SetGroup g d => set_group c g d end.
  (** A configuration made by Config() and edited by the user. *)
  Definition edited (ops : list cop) : config := fold_left cstep ops (new_config default).
  Definition group_name (g : group) : string :=
    match g with Generic => "generic" | LDOS => "LDOS" | DC_conductivity => "DC_conductivity" | Quasi_eigenstates => "quasi_eigenstates" | Dyn_pol => "dyn_pol" | Dckb => "dckb" end.
  Definition checked (g : group) : Prop := g <> DC_conductivity /\ g <> Quasi_eigenstates.
  Lemma legal_const ops : legal (edited ops) = legal (new_config default).
  Proof.
    unfold edited. generalize (new_config default). induction ops as [|o ops IH]; intros c; [reflexivity|]. cbn [fold_left]. rewrite IH. destruct o as [g k v|g k|g d]; reflexivity.
  Qed.
  Lemma check_one_spec (c : @config V) attr name ref : aget String.eqb (legal c) name = Some ref ->
    (check_one c attr name = Ok tt /\ forall k, In k (keys attr) -> In k ref) \/ (check_one c attr name = Err ValueError /\ exists k, In k (keys attr) /\ ~ In k ref).
  Proof.
    intros Hr. unfold check_one. rewrite Hr. destruct (filter _ (keys attr)) as [|k r] eqn:E.
    - left. split; [reflexivity|]. intros k Hk. destruct (existsb (String.eqb k) ref) eqn:Ex.
      + apply existsb_exists in Ex. destruct Ex as (x & Hx & He). apply String.eqb_eq in He. subst. exact Hx.
      + exfalso. assert (Hi : In k (filter (fun k => negb (existsb (String.eqb k) ref)) (keys attr))) by (apply filter_In; rewrite Ex; auto). rewrite E in Hi. exact Hi.
    - right. split; [reflexivity|]. exists k. assert (Hi : In k (filter (fun k => negb (existsb (String.eqb k) ref)) (keys attr))) by (rewrite E; left; reflexivity).
      apply filter_In in Hi. destruct Hi as (Hi & Hx). split; [exact Hi|]. intros Hin. rewrite negb_true_iff in Hx.
      assert (existsb (String.eqb k) ref = true) by (apply existsb_exists; exists k; split; [exact Hin|apply String.eqb_refl]). congruence.
  Qed.
  (** check_params raises exactly if some parameter of the four checked groups
      is not defined. *)
  Theorem C52_checked : forall ops,
    (check_params (edited ops) = Ok tt /\ forall g k, checked g -> In k (keys (get_group (edited ops) g)) -> defined_in (group_name g) k) \/
    (check_params (edited ops) = Err ValueError /\ exists g k, checked g /\ In k (keys (get_group (edited ops) g)) /\ ~ defined_in (group_name g) k).
  Proof.
    intros ops. set (c := edited ops). pose proof (legal_const ops) as HL. fold c in HL. clearbody c.
    assert (D : forall nm l, In (nm, l) defined_params -> (forall l', In (nm, l') defined_params -> l' = l) -> forall k, In k l <-> defined_in nm k).
    { intros nm l h1 h2 k. split; [intros h; exists l; auto|]. intros (l' & h3 & h4). rewrite (h2 l' h3) in h4. exact h4. }
    assert (U : forall nm l, (forall l', In (nm, l') defined_params -> l' = l) <-> Forall (fun p => fst p = nm -> snd p = l) defined_params).
    { intros nm l. rewrite Forall_forall. split; [intros h [a b] hi; cbn; intros ->; auto|intros h l' hi; exact (h _ hi eq_refl)]. }
    unfold check_params.
    destruct (check_one_spec c (c_generic c) "generic" (keys (c_generic (new_config default)))) as [(h1 & g1)|(h1 & k & g1 & n1)]; [rewrite HL; reflexivity| |].
    2: { right. rewrite h1. split; [reflexivity|]. exists Generic, k. split; [split; discriminate|]. split; [exact g1|]. rewrite <- (D "generic"%string _ (or_introl eq_refl)); [exact n1|].
         apply U. repeat (constructor; [cbn; discriminate + reflexivity|]). constructor. }
    destruct (check_one_spec c (c_LDOS c) "LDOS" (keys (c_LDOS (new_config default)))) as [(h2 & g2)|(h2 & k & g2 & n2)]; [rewrite HL; reflexivity| |].
    2: { right. rewrite h1, h2. split; [reflexivity|]. exists LDOS, k. split; [split; discriminate|]. split; [exact g2|]. rewrite <- (D "LDOS"%string _ (or_intror (or_introl eq_refl))); [exact n2|].
         apply U. repeat (constructor; [cbn; discriminate + reflexivity|]). constructor. }
    destruct (check_one_spec c (c_dyn_pol c) "dyn_pol" (keys (c_dyn_pol (new_config default)))) as [(h3 & g3)|(h3 & k & g3 & n3)]; [rewrite HL; reflexivity| |].
    2: { right. rewrite h1, h2, h3. split; [reflexivity|]. exists Dyn_pol, k. split; [split; discriminate|]. split; [exact g3|].
         rewrite <- (D "dyn_pol"%string _ (or_intror (or_intror (or_intror (or_intror (or_introl eq_refl)))))); [exact n3|].
         apply U. repeat (constructor; [cbn; discriminate + reflexivity|]). constructor. }
    destruct (check_one_spec c (c_dckb c) "dckb" (keys (c_dckb (new_config default)))) as [(h4 & g4)|(h4 & k & g4 & n4)]; [rewrite HL; reflexivity| |].
    2: { right. rewrite h1, h2, h3, h4. split; [reflexivity|]. exists Dckb, k. split; [split; discriminate|]. split; [exact g4|].
         rewrite <- (D "dckb"%string _ (or_intror (or_intror (or_intror (or_intror (or_intror (or_introl eq_refl))))))); [exact n4|].
         apply U. repeat (constructor; [cbn; discriminate + reflexivity|]). constructor. }
    left. rewrite h1, h2, h3, h4. split; [reflexivity|]. intros g k (Ha & Hb) Hi. destruct g; try congruence; cbn [get_group group_name] in *.
    - exists (keys (c_generic (new_config default))). split; [cbn; auto|apply g1, Hi].
    - exists (keys (c_LDOS (new_config default))). split; [cbn; auto|apply g2, Hi].
    - exists (keys (c_dyn_pol (new_config default))). split; [cbn; auto 10|apply g3, Hi].
    - exists (keys (c_dckb (new_config default))). split; [cbn; auto 10|apply g4, Hi].
  Qed.
  (** Configurations from files are always accepted. *)
  Theorem C52_file_accepted : forall stored, check_params (read_config default stored) = Ok tt.
  Proof.
    intros stored. set (c := read_config default stored).
    assert (H : forall name d, aget String.eqb (legal c) name = Some (keys d) -> check_one c d name = Ok tt).
    { intros name d Hn. destruct (check_one_spec c d name _ Hn) as [(h & _)|(_ & k & h1 & h2)]; [exact h|contradiction]. }
    unfold check_params. rewrite !H by reflexivity. reflexivity.
  Qed.
End Conf.
Print Assumptions C52_checked.
Print Assumptions C52_file_accepted.
Example C52_example : check_params (edited (fun _ _ => 0) [SetParam Generic "mu" 3; SetParam LDOS "delta" 1]) = Ok tt /\
  check_params (edited (fun _ _ => 0) [SetParam Generic "mu" 3; SetParam Dckb "n_kernels" 1]) = Err ValueError.
Proof. split; reflexivity. Qed.
(** A misspelt parameter of the two other groups, or in a file, is not found. *)
Theorem C52_unchecked_refuted : exists g k, ~ defined_in (group_name g) k /\ check_params (edited (fun _ _ => 0) [SetParam g k 1]) = Ok tt.
Proof.
  exists DC_conductivity, "energy_limit"%string. split; [|reflexivity]. intros (l & H1 & H2). cbn in H1. repeat destruct H1 as [H1|H1]; try discriminate; try contradiction.
  injection H1 as <-. destruct H2 as [H2|[]]. discriminate.
Qed.
Print Assumptions C52_unchecked_refuted.
Theorem C52_file_refuted : exists stored : @config Z, (exists k, In k (keys (c_generic stored)) /\ ~ defined_in "generic" k) /\ check_params stored = Err ValueError /\
  check_params (read_config (fun _ _ => 0) stored) = Ok tt.
Proof.
  exists (edited (fun _ _ => 0) [SetParam Generic "Mu" 1]). split; [|split; [reflexivity|apply C52_file_accepted]]. exists "Mu"%string. split; [cbn; auto 20|].
  intros (l & H1 & H2). cbn in H1. repeat destruct H1 as [H1|H1]; try discriminate; try contradiction. injection H1 as <-. cbn in H2. repeat destruct H2 as [H2|H2]; try discriminate; contradiction.
Qed.
Print Assumptions C52_file_refuted.
