(** C94: the files of TBPM calculations. *)
From Coq Require Import Ascii String.
From Verif Require Import Prelude L_base M_util M_tbpm L_tbpm M_out S_out.
Import ListNotations.
Local Open Scope string_scope.
Local Open Scope Z_scope.
Local Open Scope list_scope.

(** ** Paths *)
Lemma path_eqb_spec a : forall b, reflect (a = b) (path_eqb a b).
Proof.
  induction a as [|x a IH]; intros [|y b]; cbn [path_eqb]; try (constructor; congruence).
  destruct (String.eqb_spec x y) as [->|H]; cbn [andb]; [|constructor; congruence]. destruct (IH b) as [->|H]; constructor; congruence.
Qed.
Lemma path_eqb_iff a b : path_eqb a b = true <-> a = b.
Proof. destruct (path_eqb_spec a b); split; congruence. Qed.
Lemma pieces_ne s : pieces s <> [].
Proof. destruct s as [|c s]; cbn [pieces]; [discriminate|]. destruct (Ascii.eqb c "/"); [discriminate|]. destruct (pieces s); discriminate. Qed.
Lemma pieces_app a b : pieces (a ++ "/" ++ b) = pieces a ++ pieces b.
Proof.
  induction a as [|c a IH]; [reflexivity|]. change (String c a ++ "/" ++ b)%string with (String c (a ++ "/" ++ b)). cbn [pieces]. destruct (Ascii.eqb c "/"); [rewrite IH; reflexivity|]. rewrite IH.
  destruct (pieces a) eqn:E; [destruct (pieces_ne a E)|]. reflexivity.
Qed.
Lemma pieces_plain f : without "/" f -> pieces f = [f].
Proof.
  induction f as [|c f IH]; intros H; [reflexivity|]. destruct H as [Hc Hf]. cbn [pieces]. destruct (Ascii.eqb_spec c "/"); [contradiction|]. rewrite IH by exact Hf. reflexivity.
Qed.
Lemma resolve_in cwd d f : d <> "" -> without "/" f -> f <> "" -> f <> "." -> f <> ".." -> resolve cwd (d ++ "/" ++ f) = resolve cwd d ++ [f].
Proof.
  intros Hd Hf H0 H1 H2. unfold resolve. rewrite pieces_app, (pieces_plain f Hf), fold_left_app. cbn [fold_left]. unfold follow at 1.
  destruct (String.eqb_spec f ""); [contradiction|]. destruct (String.eqb_spec f "."); [contradiction|]. destruct (String.eqb_spec f ".."); [contradiction|]. cbn [orb].
  destruct d as [|c d]; [congruence|]. reflexivity.
Qed.
Lemma without_app c a b : without c a -> without c b -> without c (a ++ b).
Proof. induction a as [|d a IH]; intros Ha Hb; [exact Hb|]. destruct Ha as [Hd Ha]. split; [exact Hd|exact (IH Ha Hb)]. Qed.
Lemma app_s_nil a : (a ++ "")%string = a.
Proof. induction a as [|c a IH]; [reflexivity|]. cbn. rewrite IH. reflexivity. Qed.
Lemma app_s_assoc a b c : ((a ++ b) ++ c)%string = (a ++ b ++ c)%string.
Proof. induction a as [|x a IH]; [reflexivity|]. cbn. rewrite IH. reflexivity. Qed.
Lemma not_without c a b : ~ without c (a ++ String c b).
Proof. induction a as [|d a IH]; cbn; [intros [H _]; congruence|intros [_ H]; exact (IH H)]. Qed.
Lemma dot_inj p k q l : without "." k -> without "." l -> (p ++ "." ++ k)%string = (q ++ "." ++ l)%string -> p = q /\ k = l.
Proof.
  intros Hk Hl. revert q. induction p as [|c p IH]; intros [|d q] E; cbn in E.
  - injection E as E. split; [reflexivity|exact E].
  - exfalso. injection E as _ E. rewrite E in Hk. exact (not_without _ _ _ Hk).
  - exfalso. injection E as _ E. rewrite <- E in Hl. exact (not_without _ _ _ Hl).
  - injection E as -> E. destruct (IH q E) as [-> ->]. split; reflexivity.
Qed.
Lemma len_app a b : String.length (a ++ b) = (String.length a + String.length b)%nat.
Proof. induction a as [|c a IH]; [reflexivity|]. cbn. rewrite IH. reflexivity. Qed.
(** the names of files inside their directory *)
Lemma resolve_name cwd d p k : d <> "" -> without "/" p -> without "/" k -> (2 <= String.length k)%nat -> resolve cwd (d ++ "/" ++ p ++ "." ++ k) = resolve cwd d ++ [(p ++ "." ++ k)%string].
Proof.
  intros Hd Hp Hk Hl. assert (L : (3 <= String.length (p ++ "." ++ k))%nat) by (rewrite !len_app; cbn [String.length]; lia).
  apply resolve_in; [exact Hd|apply without_app; [exact Hp|split; [discriminate|exact Hk]]| | |]; intros E; rewrite E in L; cbn in L; lia.
Qed.
Ltac key_cases H := cbn [all_keys In] in H; repeat (destruct H as [<-|H]; [|]); [..|destruct H].
Lemma key_ok k : In k all_keys -> without "/" k /\ without "." k /\ (2 <= String.length k)%nat /\ k <> "npy" /\ k <> "pkl".
Proof. intros H. cbn [all_keys In] in H. repeat destruct H as [<-|H]; try contradiction; cbn; repeat split; try discriminate; lia. Qed.

(** A file is one of the names of a solver: the configuration, the text or the
    array of a key. *)
Inductive name_kind := KConfig | KText (k : string) | KArray (k : string).
Definition suffix (n : name_kind) : string := match n with KConfig => "config.pkl" | KText k => k | KArray k => (k ++ ".npy")%string end.
Definition known (n : name_kind) : Prop := match n with KConfig => True | KText k | KArray k => In k all_keys end.
Lemma known_ok n : known n -> without "/" (suffix n) /\ (2 <= String.length (suffix n))%nat.
Proof.
  destruct n as [|k|k]; intros H; cbn [suffix].
  - cbn. repeat split; try discriminate. lia.
  - destruct (key_ok k H) as (A & _ & B & _). split; assumption.
  - destruct (key_ok k H) as (A & _ & B & _). split; [apply without_app; [exact A|cbn; repeat split; discriminate]|rewrite len_app; lia].
Qed.
Lemma name_inj p q m n : known m -> known n -> (p ++ "." ++ suffix m)%string = (q ++ "." ++ suffix n)%string -> p = q /\ m = n.
Proof.
  intros Hm Hn E.
  assert (S3 : forall p k, (p ++ "." ++ k ++ ".npy")%string = ((p ++ "." ++ k) ++ "." ++ "npy")%string) by (intros; rewrite !app_s_assoc; reflexivity).
  assert (S2 : forall p, (p ++ "." ++ "config.pkl")%string = ((p ++ ".config") ++ "." ++ "pkl")%string) by (intros; rewrite !app_s_assoc; reflexivity).
  assert (D1 : without "." "npy") by (cbn; repeat split; discriminate). assert (D2 : without "." "pkl") by (cbn; repeat split; discriminate).
  destruct m as [|k|k], n as [|l|l]; cbn [suffix known] in *; rewrite ?S2, ?S3 in E;
    try (destruct (key_ok k Hm) as (_ & Dk & _ & Nk & Pk)); try (destruct (key_ok l Hn) as (_ & Dl & _ & Nl & Pl));
    apply dot_inj in E as [E F]; try assumption; try congruence.
  - split; [|reflexivity]. rewrite <- (app_s_nil p), <- (app_s_nil q) in E. assert (G : (p ++ "." ++ "config")%string = (q ++ "." ++ "config")%string) by (rewrite !app_s_nil in E; exact E).
    apply dot_inj in G as [G _]; [exact G| |]; cbn; repeat split; discriminate.
  - subst. split; reflexivity.
  - apply dot_inj in E as [-> ->]; try assumption. split; reflexivity.
Qed.

(** ** Effects *)
Section Effects.
  Context {V A : Type} (toZ : V -> Z) (ofZ : Z -> V) (cwd : path) (mpi : bool) (size rank : Z).
  Context (prepare : string -> @config V -> res unit) (work : string -> Z -> @config V -> res A) (work_dc : Z -> @config V -> res (A * A)) (average : A -> A).
  Notation state := (@state V A).
  Notation content := (@content V A).
  (** a call and the arrays it returns *)
  Definition arr1 (m : @M V A A) : @M V A (list A) := seq_ m (fun a => ret [a]).
  Definition arr2 (m : @M V A (A * A)) : @M V A (list A) := seq_ m (fun ab => ret [fst ab; snd ab]).
  Definition run (c : call) : @M V A (list A) :=
    match c with
    | Dos => arr1 (calc_corr_dos toZ ofZ cwd mpi size rank prepare work average)
    | Ldos => arr1 (calc_corr_ldos toZ ofZ cwd mpi size rank prepare work average)
    | Ac => arr1 (calc_corr_ac_cond toZ ofZ cwd mpi size rank prepare work average)
    | DynPol => arr1 (calc_corr_dyn_pol toZ ofZ cwd mpi size rank prepare work average)
    | Dc => arr2 (calc_corr_dc_cond toZ ofZ cwd mpi size rank prepare work_dc average)
    | Hall => arr1 (calc_hall_mu toZ ofZ cwd mpi size rank prepare work average)
    | Qe b => arr1 (calc_quasi_eigenstates toZ ofZ cwd mpi size rank prepare work average b)
    | Haydock => arr2 (calc_ldos_haydock toZ cwd size rank prepare work)
    | Psi b => arr1 (calc_psi_t cwd size rank prepare work b)
    end.
  Definition put_all (L : list (path * content)) (f : list (path * content)) : list (path * content) := fold_left (fun f e => aset path_eqb f (fst e) (snd e)) L f.
  Definition pth (s : state) (n : name_kind) : path := resolve cwd (file_of s (suffix n)).
  Definition eff (s s' : state) (L : list (path * content)) : Prop :=
    w_dirs (s_world s') = w_dirs (s_world s) /\ s_dir s' = s_dir s /\ s_prefix s' = s_prefix s /\ w_files (s_world s') = put_all L (w_files (s_world s)).
  (** what may have happened to the configuration *)
  Definition conf (s s' : state) : Prop := s_config s' = s_config s \/
    (mpi = true /\ exists v n, aget String.eqb (c_generic (s_config s)) nr_name = Some v /\ n <> toZ v /\ grow (S (Z.to_nat size)) (toZ v) size = Ok n /\ s_config s' = set_param (s_config s) Generic nr_name (ofZ n)).
  (** the process can write what the call writes *)
  Definition writable (s : state) : Prop := is_dir (s_world s) (resolve cwd (s_dir s)) = true /\ s_dir s <> "" /\ without "/" (s_prefix s)
    /\ forall n, known n -> is_dir (s_world s) (pth s n) = false.
  Lemma eff_refl s : eff s s []. Proof. repeat split. Qed.
  Lemma eff_trans s t u L K : eff s t L -> eff t u K -> eff s u (L ++ K).
  Proof. intros (A1 & A2 & A3 & A4) (B1 & B2 & B3 & B4). repeat split; try congruence. unfold put_all in *. rewrite fold_left_app, B4, A4. reflexivity. Qed.
  Lemma eff_pth s t L n : eff s t L -> pth t n = pth s n.
  Proof. intros (A1 & A2 & A3 & A4). unfold pth, file_of. rewrite A2, A3. reflexivity. Qed.
  Lemma eff_writable s t L : eff s t L -> writable s -> writable t.
  Proof.
    intros H (W1 & W2 & W3 & W4). pose proof (fun n => eff_pth s t L n H) as P. destruct H as (A1 & A2 & A3 & A4). unfold writable, is_dir in *. rewrite A1, A2, A3. repeat split; try assumption. intros n Hn. rewrite P. apply W4. exact Hn.
  Qed.
  Lemma seq_ok {X Y} (m : @M V A X) (f : X -> @M V A Y) s s' y : seq_ m f s = (s', Ok y) -> exists t x, m s = (t, Ok x) /\ f x t = (s', Ok y).
  Proof. unfold seq_. destruct (m s) as [t [x|e]]; intros H; [exists t, x; split; [reflexivity|exact H]|discriminate]. Qed.
  Lemma seq_err {X Y} (m : @M V A X) (f : X -> @M V A Y) s s' e : seq_ m f s = (s', Err e) -> m s = (s', Err e) \/ exists t x, m s = (t, Ok x) /\ f x t = (s', Err e).
  Proof. unfold seq_. destruct (m s) as [t [x|e']]; intros H; [right; exists t, x; split; [reflexivity|exact H]|left; congruence]. Qed.
  Lemma lift_ok {X} (r : @config V -> res X) (s s' : state) x : lift r s = (s', x) -> s' = s /\ r (s_config s) = x.
  Proof. unfold lift. intros H. injection H as <- <-. split; reflexivity. Qed.
  Lemma write_eff s s' p x r : on_world (fun w => write cwd w p x) s = (s', r) ->
    s_config s' = s_config s /\ (r = Ok tt /\ eff s s' [(resolve cwd p, x)] \/ exists e, r = Err e /\ s' = s /\ (is_dir (s_world s) (resolve cwd p) = true \/ is_dir (s_world s) (removelast (resolve cwd p)) = false)).
  Proof.
    unfold on_world, write. destruct (is_dir (s_world s) (resolve cwd p)) eqn:E1; cbn [orb]; [intros H; injection H as <- <-; split; [reflexivity|right; eexists; repeat split; left; reflexivity]|].
    destruct (is_dir (s_world s) (removelast (resolve cwd p))) eqn:E2; cbn [negb]; intros H; injection H as <- <-; (split; [reflexivity|]); [left; split; [reflexivity|]; repeat split|right; eexists; repeat split; right; reflexivity].
  Qed.
  Lemma writable_parent s n : writable s -> known n -> removelast (pth s n) = resolve cwd (s_dir s).
  Proof.
    intros (W1 & W2 & W3 & W4) Hn. destruct (known_ok n Hn) as [K1 K2]. unfold pth, file_of. rewrite resolve_name by assumption. apply removelast_last.
  Qed.
  Lemma write_writable s s' n x r : writable s -> known n -> on_world (fun w => write cwd w (file_of s (suffix n)) x) s = (s', r) -> r = Ok tt.
  Proof.
    intros W Hn H. apply write_eff in H as [_ [[-> _]|(e & -> & -> & [H|H])]]; [reflexivity| |].
    - destruct W as (_ & _ & _ & W). rewrite (W n Hn : is_dir _ (resolve cwd (file_of s (suffix n))) = false) in H. discriminate.
    - change (resolve cwd (file_of s (suffix n))) with (pth s n) in H. rewrite (writable_parent s n W Hn) in H. destruct W as [W _]. congruence.
  Qed.
  Lemma text_eff s s' k ns r : text cwd rank k ns s = (s', r) -> s_config s' = s_config s /\ (r = Ok tt /\ eff s s' [(pth s (KText k), Text ns rank)] \/ (exists e, r = Err e) /\ s' = s /\ (In k all_keys -> ~ writable s)).
  Proof.
    unfold text. intros H. pose proof H as H'. apply write_eff in H as [Hc [[-> H]|(e & -> & -> & H)]]; (split; [exact Hc|]); [left; split; [reflexivity|exact H]|right; split; [eexists; reflexivity|split; [reflexivity|]]].
    intros Hk W. discriminate (write_writable s s (KText k) _ _ W Hk H').
  Qed.
  Lemma save_eff s s' a k r : save_data cwd rank a k "numpy" s = (s', r) -> s_config s' = s_config s /\
    (r = Ok tt /\ eff s s' (if master rank then [(pth s (KArray k), Array a)] else []) \/ (exists e, r = Err e) /\ s' = s /\ (In k all_keys -> ~ writable s)).
  Proof.
    unfold save_data. cbn [String.eqb orb Ascii.eqb Bool.eqb]. 
    assert (F : (file_of s k ++ ".npy")%string = file_of s (suffix (KArray k))) by (unfold file_of; cbn [suffix]; rewrite !app_s_assoc; reflexivity).
    destruct (master rank).
    - intros H. rewrite F in H. pose proof H as H'. apply write_eff in H as [Hc [[-> H]|(e & -> & -> & H)]]; (split; [exact Hc|]); [left; split; [reflexivity|exact H]|right; split; [eexists; reflexivity|split; [reflexivity|]]].
      intros Hk W. discriminate (write_writable s s (KArray k) _ _ W Hk H').
    - intros H. injection H as <- <-. split; [reflexivity|left; split; [reflexivity|apply eff_refl]].
  Qed.
  Lemma dist_eff s s' r : dist toZ ofZ mpi size s = (s', r) -> eff s s' [] /\ conf s s' /\ (forall e, r = Err e -> s_config s' = s_config s)
    /\ (forall ns, r = Ok ns -> exists v n, aget String.eqb (c_generic (s_config s)) nr_name = Some v /\ dist_sample mpi size (toZ v) = Ok (n, ns) /\ s_config s' = if n =? toZ v then s_config s else set_param (s_config s) Generic nr_name (ofZ n)).
  Proof.
    unfold dist. destruct (aget String.eqb (c_generic (s_config s)) nr_name) as [v|] eqn:E; [|intros H; injection H as <- <-; repeat split; [left; reflexivity|discriminate]].
    destruct (dist_sample mpi size (toZ v)) as [[n ns]|e] eqn:D; intros H; injection H as <- <-; [|repeat split; [left; reflexivity|discriminate]].
    split; [repeat split|]. split; [|split; [discriminate|]].
    - destruct (Z.eqb_spec n (toZ v)) as [->|Hne]; [left; reflexivity|right]. unfold dist_sample in D. destruct mpi; [|injection D as <- <-; congruence]. destruct (grow (S (Z.to_nat size)) (toZ v) size) as [n'|] eqn:G; [|discriminate]. cbn [bind] in D. injection D as <- <-.
      split; [reflexivity|]. exists v, n'. repeat split; assumption.
    - intros ns' H. injection H as <-. exists v, n. repeat split; assumption.
  Qed.
  Definition text_log (s : state) (ns : Z) (ks : list string) : list (path * content) := map (fun k => (pth s (KText k), Text ns rank)) ks.
  Definition array_log (s : state) (l : list (string * A)) : list (path * content) := map (fun e => (pth s (KArray (fst e)), Array (snd e))) l.
  (** the arrays that the calculation returns *)
  Definition value (c : call) (ns : Z) (cfg : @config V) (l : list A) : Prop :=
    match c with
    | Dos => exists a, work "dos" ns cfg = Ok a /\ l = [average a]
    | Ldos => exists a, work "ldos" ns cfg = Ok a /\ l = [average a]
    | Ac => exists a, work "ac" ns cfg = Ok a /\ l = [average a]
    | DynPol => exists a, work "dyn_pol" ns cfg = Ok a /\ l = [average a]
    | Dc => exists a b, work_dc ns cfg = Ok (a, b) /\ l = [average a; average b]
    | Hall => exists a, work "hall" ns cfg = Ok a /\ l = [average a]
    | Qe _ => exists a, work "qe" ns cfg = Ok a /\ l = [average a]
    | Haydock => exists a b, work "haydock_energies" ns cfg = Ok a /\ work "haydock" ns cfg = Ok b /\ l = [a; b]
    | Psi _ => exists a, work "psi_t" 0 cfg = Ok a /\ l = [a]
    end.
  (** the number of samples of this process and the configuration during the work *)
  Definition share (c : call) (s s' : state) (ns : Z) : Prop :=
    if sampled c then exists v n, aget String.eqb (c_generic (s_config s)) nr_name = Some v /\ dist_sample mpi size (toZ v) = Ok (n, ns)
                      /\ s_config s' = if n =? toZ v then s_config s else set_param (s_config s) Generic nr_name (ofZ n)
    else s_config s' = s_config s /\ (c = Haydock -> exists v, aget String.eqb (c_generic (s_config s)) nr_name = Some v /\ ns = toZ v) /\ size = 1.
  Ltac step H :=
    match type of H with
    | seq_ _ _ _ = (_, Ok _) => let t := fresh "t" in let x := fresh "x" in let E := fresh "E" in apply seq_ok in H as (t & x & E & H); cbn beta in H
    end.
  Ltac known_key := cbn; tauto.
  Lemma run_ok c s s' l : run c s = (s', Ok l) -> exists ns,
    eff s s' (text_log s ns (texts c) ++ (if master rank then array_log s (puts (saved_as c) l) else [])) /\ length l = length (saved_as c) /\ value c ns (s_config s') l /\ share c s s' ns.
  Proof.
    assert (One : forall key w k, forall s s' a, 
      (seq_ (lift (prepare key)) (fun _ => seq_ (dist toZ ofZ mpi size) (fun ns => seq_ (text cwd rank k ns) (fun _ => seq_ (lift (work w ns)) (fun a => seq_ (save_data cwd rank (average a) k "numpy") (fun _ => ret (average a))))))) s = (s', Ok a) ->
      exists ns, eff s s' (text_log s ns [k] ++ (if master rank then array_log s [(k, a)] else [])) /\ (exists b, work w ns (s_config s') = Ok b /\ a = average b)
        /\ exists v n, aget String.eqb (c_generic (s_config s)) nr_name = Some v /\ dist_sample mpi size (toZ v) = Ok (n, ns) /\ s_config s' = if n =? toZ v then s_config s else set_param (s_config s) Generic nr_name (ofZ n)).
    { clear. intros key w k s s' a H. do 5 step H. injection H as <- <-.
      apply lift_ok in E as [-> E]. apply dist_eff in E0 as (E0 & _ & _ & D). apply text_eff in E1 as [C1 [[_ E1]|((e & Q) & _)]]; [|discriminate]. apply lift_ok in E2 as [-> E2]. apply save_eff in E3 as [C3 [[_ E3]|((e & Q) & _)]]; [|discriminate].
      exists x0. pose proof (eff_trans _ _ _ _ _ E0 (eff_trans _ _ _ _ _ E1 E3)) as T. cbn [app] in T.
      split; [|split].
      - rewrite (eff_pth _ _ _ (KText k) E0) in T. rewrite (eff_pth _ _ _ (KArray k) E1), (eff_pth _ _ _ (KArray k) E0) in T. exact T.
      - exists x2. rewrite C3. split; [exact E2|reflexivity].
      - destruct (D x0 eq_refl) as (v & n & D1 & D2 & D3). exists v, n. repeat split; try assumption. rewrite C3, C1. exact D3. }
    assert (One' : forall key w k (b : bool), forall s s' a, 
      (seq_ (lift (prepare key)) (fun _ => seq_ (dist toZ ofZ mpi size) (fun ns => seq_ (lift (work w ns)) (fun a => seq_ (if b then save_data cwd rank (average a) k "numpy" else ret tt) (fun _ => ret (average a)))))) s = (s', Ok a) ->
      exists ns, eff s s' (if master rank then array_log s (if b then [(k, a)] else []) else []) /\ (exists b, work w ns (s_config s') = Ok b /\ a = average b)
        /\ exists v n, aget String.eqb (c_generic (s_config s)) nr_name = Some v /\ dist_sample mpi size (toZ v) = Ok (n, ns) /\ s_config s' = if n =? toZ v then s_config s else set_param (s_config s) Generic nr_name (ofZ n)).
    { clear. intros key w k b s s' a H. do 4 step H. injection H as <- <-.
      apply lift_ok in E as [-> E]. apply dist_eff in E0 as (E0 & _ & _ & D). apply lift_ok in E1 as [-> E1]. exists x0. destruct b.
      - apply save_eff in E2 as [C3 [[_ E3]|((e & Q) & _)]]; [|discriminate]. pose proof (eff_trans _ _ _ _ _ E0 E3) as T. cbn [app] in T. rewrite (eff_pth _ _ _ (KArray k) E0) in T.
        split; [exact T|]. split; [exists x1; rewrite C3; split; [exact E1|reflexivity]|]. destruct (D x0 eq_refl) as (v & n & D1 & D2 & D3). exists v, n. repeat split; try assumption. rewrite C3. exact D3.
      - injection E2 as <- <-. split; [destruct (master rank); exact E0|]. split; [exists x1; split; [exact E1|reflexivity]|]. destruct (D x0 eq_refl) as (v & n & D1 & D2 & D3). exists v, n. repeat split; assumption. }
    destruct c; cbn [run]; unfold arr1, arr2; intros H; step H; injection H as <- <-.
    - apply One in E as (ns & T & (b & W & ->) & D). exists ns. split; [exact T|]. split; [reflexivity|]. split; [exists b; split; [exact W|reflexivity]|exact D].
    - apply One in E as (ns & T & (b & W & ->) & D). exists ns. split; [exact T|]. split; [reflexivity|]. split; [exists b; split; [exact W|reflexivity]|exact D].
    - apply One in E as (ns & T & (b & W & ->) & D). exists ns. split; [exact T|]. split; [reflexivity|]. split; [exists b; split; [exact W|reflexivity]|exact D].
    - apply One in E as (ns & T & (b & W & ->) & D). exists ns. split; [exact T|]. split; [reflexivity|]. split; [exists b; split; [exact W|reflexivity]|exact D].
    - unfold calc_corr_dc_cond in E. do 7 step E. injection E as <- <-. cbn [fst snd].
      apply lift_ok in E0 as [-> E0]. apply dist_eff in E1 as (E1 & _ & _ & D). apply text_eff in E2 as [C2 [[_ E2]|((e & Q) & _)]]; [|discriminate]. apply text_eff in E3 as [C3 [[_ E3]|((e & Q) & _)]]; [|discriminate]. apply lift_ok in E4 as [-> E4].
      apply save_eff in E5 as [C5 [[_ E5]|((e & Q) & _)]]; [|discriminate]. apply save_eff in E6 as [C6 [[_ E6]|((e & Q) & _)]]; [|discriminate].
      exists x1. pose proof (eff_trans _ _ _ _ _ E1 (eff_trans _ _ _ _ _ E2 (eff_trans _ _ _ _ _ E3 (eff_trans _ _ _ _ _ E5 E6)))) as T.
      rewrite (eff_pth _ _ _ (KArray "corr_DC") E5), (eff_pth _ _ _ (KArray "corr_DC") E3), (eff_pth _ _ _ (KArray "corr_DC") E2), (eff_pth _ _ _ (KArray "corr_DC") E1), (eff_pth _ _ _ (KArray "corr_DOS") E3), (eff_pth _ _ _ (KArray "corr_DOS") E2), (eff_pth _ _ _ (KArray "corr_DOS") E1), (eff_pth _ _ _ (KText "corr_DC") E2), (eff_pth _ _ _ (KText "corr_DC") E1), (eff_pth _ _ _ (KText "corr_DOS") E1) in T.
      split; [destruct (master rank); exact T|]. split; [reflexivity|]. destruct x4 as [a b]. cbn [fst snd]. split; [exists a, b; rewrite C6, C5; split; [exact E4|reflexivity]|].
      destruct (D x1 eq_refl) as (v & n & D1 & D2 & D3). exists v, n. repeat split; try assumption. rewrite C6, C5, C3, C2. exact D3.
    - apply (One' _ _ "hall_mu" true) in E as (ns & T & (b & W & ->) & D). exists ns. split; [exact T|]. split; [reflexivity|]. split; [exists b; split; [exact W|reflexivity]|exact D].
    - apply (One' _ _ "qe" save) in E as (ns & T & (b & W & ->) & D). exists ns. split; [cbn [texts text_log map app saved_as]; destruct save; exact T|]. split; [reflexivity|]. split; [exists b; split; [exact W|reflexivity]|exact D].
    - unfold calc_ldos_haydock in E. destruct (Z.eqb_spec size 1) as [S1|]; cbn [negb] in E; [|discriminate]. do 3 step E. injection E as <- <-. apply lift_ok in E0 as [-> E0]. apply lift_ok in E1 as [-> E1].
      apply save_eff in E2 as [C2 [[_ E2]|((e & Q) & _)]]; [|discriminate]. destruct (aget String.eqb (c_generic (s_config s)) nr_name) as [v|] eqn:Ev; [|discriminate]. exists (toZ v).
      destruct (work "haydock_energies" (toZ v) (s_config s)) as [en|] eqn:W1; [|discriminate]. cbn [bind] in E1. destruct (work "haydock" (toZ v) (s_config s)) as [ld|] eqn:W2; [|discriminate]. cbn [bind] in E1. injection E1 as <-. cbn [fst snd] in *.
      split; [exact E2|]. split; [reflexivity|]. split; [exists en, ld; rewrite C2; repeat split; assumption|]. split; [exact C2|split; [intros _; exists v; split; [exact Ev|reflexivity]|exact S1]].
    - unfold calc_psi_t in E. destruct (Z.eqb_spec size 1) as [S1|]; cbn [negb] in E; [|discriminate]. do 3 step E. injection E as <- <-. apply lift_ok in E0 as [-> E0]. apply lift_ok in E1 as [-> E1]. exists 0. destruct save.
      + apply save_eff in E2 as [C2 [[_ E2]|((e & Q) & _)]]; [|discriminate]. split; [exact E2|]. split; [reflexivity|]. split; [exists x1; rewrite C2; split; [exact E1|reflexivity]|]. split; [exact C2|split; [discriminate|exact S1]].
      + injection E2 as <- <-. split; [destruct (master rank); apply eff_refl|]. split; [reflexivity|]. split; [exists x1; split; [exact E1|reflexivity]|]. split; [reflexivity|split; [discriminate|exact S1]].
  Qed.
  (** finished or not, a call touches only its own files; if it fails, only texts *)
  Definition entry_ok (s : state) (T S : list string) (e : path * content) : Prop :=
    (exists k, In k T /\ fst e = pth s (KText k)) \/ (exists k, master rank = true /\ In k S /\ fst e = pth s (KArray k)).
  Definition obeys {X} (T S : list string) (m : @M V A X) : Prop := forall s s' r, m s = (s', r) ->
    exists L, eff s s' L /\ Forall (entry_ok s T S) L /\ (forall e, r = Err e -> writable s -> Forall (entry_ok s T []) L).
  Definition safe {X} (m : @M V A X) : Prop := forall s s' e, writable s -> m s <> (s', Err e).
  Lemma entry_weak s T S e : entry_ok s T [] e -> entry_ok s T S e.
  Proof. intros [H|(k & _ & [] & _)]. left. exact H. Qed.
  Lemma entry_eff s t L T S e : eff s t L -> entry_ok t T S e -> entry_ok s T S e.
  Proof. intros H [(k & Hk & E)|(k & Hm & Hk & E)]; rewrite (eff_pth _ _ _ _ H) in E; [left|right]; exists k; repeat split; assumption. Qed.
  Lemma obeys_seq {X Y} T S (m : @M V A X) (f : X -> @M V A Y) : obeys T [] m -> (forall x, obeys T S (f x)) -> obeys T S (seq_ m f).
  Proof.
    intros Hm Hf s s' r H. unfold seq_ in H. destruct (m s) as [t [x|e]] eqn:E.
    - destruct (Hm s t (Ok x) E) as (L & E1 & F1 & _). destruct (Hf x t s' r H) as (K & E2 & F2 & G2). exists (L ++ K). split; [exact (eff_trans _ _ _ _ _ E1 E2)|]. split.
      + apply Forall_app. split; [eapply Forall_impl; [|exact F1]; intros e; apply entry_weak|eapply Forall_impl; [|exact F2]; intros e; apply (entry_eff _ _ _ _ _ _ E1)].
      + intros e He W. apply Forall_app. split; [exact F1|]. eapply Forall_impl; [|exact (G2 e He (eff_writable _ _ _ E1 W))]. intros e'. apply (entry_eff _ _ _ _ _ _ E1).
    - injection H as <- <-. destruct (Hm s t (Err e) E) as (L & E1 & F1 & G1). exists L. split; [exact E1|]. split; [eapply Forall_impl; [|exact F1]; intros e'; apply entry_weak|intros e' He; injection He as He; exact (G1 e' (f_equal Err He))].
  Qed.
  Lemma obeys_safe {X Y} T S (m : @M V A X) (f : X -> @M V A Y) : obeys T S m -> (forall x, obeys T S (f x)) -> (forall x, safe (f x)) -> obeys T S (seq_ m f).
  Proof.
    intros Hm Hf Hs s s' r H. unfold seq_ in H. destruct (m s) as [t [x|e]] eqn:E.
    - destruct (Hm s t (Ok x) E) as (L & E1 & F1 & _). destruct (Hf x t s' r H) as (K & E2 & F2 & G2). exists (L ++ K). split; [exact (eff_trans _ _ _ _ _ E1 E2)|]. split.
      + apply Forall_app. split; [exact F1|eapply Forall_impl; [|exact F2]; intros e; apply (entry_eff _ _ _ _ _ _ E1)].
      + intros e -> W. destruct (Hs x t s' e (eff_writable _ _ _ E1 W) H).
    - injection H as <- <-. destruct (Hm s t (Err e) E) as (L & E1 & F1 & G1). exists L. split; [exact E1|]. split; [exact F1|]. intros e' He. injection He as He. exact (G1 e' (f_equal Err He)).
  Qed.
  Lemma obeys_lift {X} T S (r : @config V -> res X) : obeys T S (lift r).
  Proof. intros s s' x H. apply lift_ok in H as [-> _]. exists []. split; [apply eff_refl|]. split; [constructor|intros; constructor]. Qed.
  Lemma obeys_ret {X} T S (x : X) : obeys T S (ret x).
  Proof. intros s s' r H. injection H as <- <-. exists []. split; [apply eff_refl|]. split; [constructor|intros; constructor]. Qed.
  Lemma obeys_dist T S : obeys T S (dist toZ ofZ mpi size).
  Proof. intros s s' r H. apply dist_eff in H as (H & _). exists []. split; [exact H|]. split; [constructor|intros; constructor]. Qed.
  Lemma obeys_text T S k ns : In k T -> obeys T S (text cwd rank k ns).
  Proof.
    intros Hk s s' r H. apply text_eff in H as [_ [[-> H]|((e & ->) & -> & H)]].
    - eexists. split; [exact H|]. split; [|discriminate]. constructor; [|constructor]. left. exists k. split; [exact Hk|reflexivity].
    - exists []. split; [apply eff_refl|]. split; [constructor|intros; constructor].
  Qed.
  Lemma obeys_save T S a k : In k S -> obeys T S (save_data cwd rank a k "numpy").
  Proof.
    intros Hk s s' r H. apply save_eff in H as [_ [[-> H]|((e & ->) & -> & H)]].
    - eexists. split; [exact H|]. split; [|discriminate]. destruct (master rank) eqn:Em; constructor; [|constructor]. right. exists k. split; [exact Em|]. split; [exact Hk|reflexivity].
    - exists []. split; [apply eff_refl|]. split; [constructor|intros; constructor].
  Qed.
  Lemma safe_ret {X} (x : X) : safe (ret x). Proof. intros s s' e _ H. discriminate. Qed.
  Lemma safe_save a k : In k all_keys -> safe (save_data cwd rank a k "numpy").
  Proof. intros Hk s s' e W H. apply save_eff in H as [_ [[H _]|(_ & _ & H)]]; [discriminate|exact (H Hk W)]. Qed.
  Lemma safe_seq {X Y} T S (m : @M V A X) (f : X -> @M V A Y) : obeys T S m -> safe m -> (forall x, safe (f x)) -> safe (seq_ m f).
  Proof.
    intros Ho Hm Hf s s' e W H. unfold seq_ in H. destruct (m s) as [t [x|e']] eqn:E; [|exact (Hm s t e' W E)]. destruct (Ho s t (Ok x) E) as (L & E1 & _). exact (Hf x t s' e (eff_writable _ _ _ E1 W) H).
  Qed.
  Definition arrays (c : call) : list string := concat (map (fun o => match o with Some k => [k] | None => [] end) (saved_as c)).
  Ltac save1 := apply obeys_safe; [first [apply obeys_save; cbn; tauto|apply obeys_ret]|intros; apply obeys_ret|intros; apply safe_ret].
  Ltac pre := apply obeys_seq; [first [apply obeys_lift|apply obeys_dist|apply obeys_text; cbn; tauto]|intros ?].
  Lemma run_obeys c : obeys (texts c) (arrays c) (run c).
  Proof.
    destruct c; cbn [run]; unfold arr1, arr2; (apply obeys_safe; [|intros; apply obeys_ret|intros; apply safe_ret]).
    - do 4 pre. save1.
    - do 4 pre. save1.
    - do 4 pre. save1.
    - do 4 pre. save1.
    - do 5 pre. apply obeys_safe; [apply obeys_save; cbn; tauto|intros _; save1|intros _]. apply (safe_seq ["corr_DC"] ["corr_DC"]); [apply obeys_save; cbn; tauto|apply safe_save; cbn; tauto|intros; apply safe_ret].
    - do 3 pre. save1.
    - do 3 pre. destruct save; save1.
    - unfold calc_ldos_haydock. destruct (size =? 1); cbn [negb]; [|intros s s' r H; injection H as <- <-; exists []; split; [apply eff_refl|split; [constructor|intros; constructor]]]. do 2 pre. save1.
    - unfold calc_psi_t. destruct (size =? 1); cbn [negb]; [|intros s s' r H; injection H as <- <-; exists []; split; [apply eff_refl|split; [constructor|intros; constructor]]]. do 2 pre. destruct save; save1.
  Qed.
End Effects.

Lemma put_all_miss {V A} (L : list (path * @content V A)) p : (forall e, In e L -> fst e <> p) -> forall f, aget path_eqb (put_all L f) p = aget path_eqb f p.
Proof.
  unfold put_all. induction L as [|e L IH]; intros H f; [reflexivity|]. cbn [fold_left]. rewrite IH by (intros e' He'; apply H; right; exact He').
  rewrite (aget_aset path_eqb path_eqb_iff). destruct (path_eqb_spec p (fst e)) as [E|E]; [destruct (H e (or_introl eq_refl)); congruence|reflexivity].
Qed.
Lemma put_all_hit {V A} (L K : list (path * @content V A)) p x : (forall e, In e K -> fst e <> p) -> forall f, aget path_eqb (put_all (L ++ (p, x) :: K) f) p = Some x.
Proof.
  intros H f. unfold put_all. rewrite fold_left_app. cbn [fold_left fst snd]. etransitivity; [apply (put_all_miss K p H)|]. rewrite (aget_aset path_eqb path_eqb_iff). destruct (path_eqb_spec p p); [reflexivity|congruence].
Qed.

(** ** Theorems *)
Section Theorems.
  Context {V A : Type} (toZ : V -> Z) (ofZ : Z -> V) (cwd : path) (mpi : bool) (size rank : Z).
  Context (prepare : string -> @config V -> res unit) (work : string -> Z -> @config V -> res A) (work_dc : Z -> @config V -> res (A * A)) (average : A -> A).
  Notation state := (@state V A).
  Notation run := (run toZ ofZ cwd mpi size rank prepare work work_dc average).
  Notation pth := (@pth V A cwd).
  Notation file s n := (aget path_eqb (w_files (s_world s)) n).
  (** the output directory has a name and the prefix names no directory *)
  Definition plain (s : state) : Prop := s_dir s <> "" /\ without "/" (s_prefix s).

  (** A file name belongs to one directory, one prefix and one purpose. *)
  Theorem C94_names : forall (s t : state) m n, plain s -> plain t -> known m -> known n -> pth s m = pth t n ->
    resolve cwd (s_dir s) = resolve cwd (s_dir t) /\ s_prefix s = s_prefix t /\ m = n.
  Proof.
    intros s t m n [Hs1 Hs2] [Ht1 Ht2] Hm Hn E. destruct (known_ok m Hm) as [M1 M2]. destruct (known_ok n Hn) as [N1 N2]. unfold P_out.pth, file_of in E.
    rewrite !resolve_name in E by assumption. apply app_inj_tail in E as [E F]. apply name_inj in F as [F G]; try assumption. repeat split; assumption.
  Qed.
  (** ... and it is a file in that directory. *)
  Theorem C94_place : forall (s : state) n, plain s -> known n -> pth s n = resolve cwd (s_dir s) ++ [(s_prefix s ++ "." ++ suffix n)%string].
  Proof. intros s n [H1 H2] Hn. destruct (known_ok n Hn) as [N1 N2]. unfold P_out.pth, file_of. rewrite resolve_name by assumption. reflexivity. Qed.

  Lemma pth_ne (s : state) m n : plain s -> known m -> known n -> m <> n -> pth s m <> pth s n.
  Proof. intros Hp Hm Hn H E. apply H. exact (proj2 (proj2 (C94_names s s m n Hp Hp Hm Hn E))). Qed.
  Lemma puts_known c (l : list A) k a : In (k, a) (puts (saved_as c) l) -> In k all_keys /\ In k (arrays c).
  Proof.
    destruct c as [| | | | | |[|]| |[|]]; destruct l as [|a0 [|a1 l]]; cbn; intros H; repeat destruct H as [H|H]; try contradiction; try (injection H as <- <-; cbn; tauto).
  Qed.
  Lemma texts_known c k : In k (texts c) -> In k all_keys.
  Proof. destruct c; cbn; tauto. Qed.
  Lemma arrays_known c k : In k (arrays c) -> In k all_keys.
  Proof. destruct c as [| | | | | |[|]| |[|]]; cbn; tauto. Qed.
  Lemma puts_nodup c (l : list A) : NoDup (map fst (puts (saved_as c) l)).
  Proof. destruct c as [| | | | | |[|]| |[|]]; destruct l as [|a0 [|a1 l]]; cbn; repeat constructor; cbn; intros H; repeat destruct H as [H|H]; try contradiction; discriminate. Qed.

  (** The master has the arrays it returned in the files with their names. *)
  Theorem C94_saved : forall c (s s' : state) l, plain s -> master rank = true -> run c s = (s', Ok l) ->
    length l = length (saved_as c) /\ forall k a, In (k, a) (puts (saved_as c) l) -> file s' (pth s (KArray k)) = Some (Array a).
  Proof.
    intros c s s' l Hp Hm H. apply run_ok in H as (ns & (_ & _ & _ & E) & Hl & _). rewrite Hm in E. split; [exact Hl|]. intros k a Hk. rewrite E.
    pose proof (puts_nodup c l) as Hn. pose proof (fun k a => puts_known c l k a) as Hkn. apply in_split in Hk as (l1 & l2 & Hk). rewrite Hk in *.
    unfold array_log. rewrite map_app. cbn [map fst snd]. rewrite app_assoc. apply put_all_hit. intros e He. apply in_map_iff in He as ((k' & a') & <- & He). cbn [fst snd].
    apply pth_ne; [exact Hp|exact (proj1 (Hkn k' a' ltac:(apply in_or_app; right; right; exact He)))|exact (proj1 (Hkn k a ltac:(apply in_or_app; right; left; reflexivity)))|].
    intros Q. injection Q as ->. rewrite map_app in Hn. cbn [map fst] in Hn. apply NoDup_remove_2 in Hn. apply Hn. apply in_or_app. right. apply (in_map fst _ _ He).
  Qed.
  (** Whatever happens, other files, and all directories, stay as they are. *)
  Theorem C94_untouched : forall c (s s' : state) r, run c s = (s', r) ->
    w_dirs (s_world s') = w_dirs (s_world s) /\ s_dir s' = s_dir s /\ s_prefix s' = s_prefix s /\
    forall p, (forall k, In k (texts c) -> p <> pth s (KText k)) -> (forall k, In k (arrays c) -> p <> pth s (KArray k)) -> file s' p = file s p.
  Proof.
    intros c s s' r H. apply run_obeys in H as (L & (E1 & E2 & E3 & E4) & F & _). repeat split; try assumption. intros p Ht Ha. rewrite E4. apply put_all_miss. intros e He Q. rewrite Forall_forall in F.
    destruct (F e He) as [(k & Hk & E)|(k & _ & Hk & E)]; [apply (Ht k Hk)|apply (Ha k Hk)]; congruence.
  Qed.
  (** A calculation that fails leaves the arrays of earlier ones alone. *)
  Theorem C94_failed : forall c (s s' : state) e, writable cwd s -> run c s = (s', Err e) -> forall n, known n -> (forall k, n <> KText k) -> file s' (pth s n) = file s (pth s n).
  Proof.
    intros c s s' e W H n Hn Ht. apply run_obeys in H as (L & (E1 & E2 & E3 & E4) & _ & G). specialize (G e eq_refl W). rewrite Forall_forall in G. rewrite E4. apply put_all_miss. intros x Hx Q.
    destruct (G x Hx) as [(k & Hk & E)|(k & _ & [] & _)]. assert (Hp : plain s) by (destruct W as (_ & W1 & W2 & _); split; assumption). apply (pth_ne s (KText k) n Hp); [exact (texts_known c k Hk)|exact Hn|intros F; exact (Ht k (eq_sym F))|congruence].
  Qed.
  (** Processes other than the master write texts only. *)
  Theorem C94_worker : forall c (s s' : state) r, master rank = false -> run c s = (s', r) ->
    forall p, (forall k, In k (texts c) -> p <> pth s (KText k)) -> file s' p = file s p.
  Proof.
    intros c s s' r Hm H p Ht. apply run_obeys in H as (L & (E1 & E2 & E3 & E4) & F & _). rewrite E4. apply put_all_miss. intros e He Q. rewrite Forall_forall in F.
    destruct (F e He) as [(k & Hk & E)|(k & Q' & _)]; [apply (Ht k Hk); congruence|congruence].
  Qed.
  (** A session: before every calculation the user may change the configuration. *)
  Fixpoint session (cs : list ((@config V -> @config V) * call)) (s : state) : state * list (string * A) :=
    match cs with
    | [] => (s, [])
    | (f, c) :: r =>
      let s := {| s_world := s_world s; s_config := f (s_config s); s_dir := s_dir s; s_prefix := s_prefix s |} in
      let '(t, o) := run c s in
      let '(u, more) := session r t in
      (u, match o with Ok l => puts (saved_as c) l | Err _ => [] end ++ more)
    end.
  Lemma last_app {B} k (a b : list (string * B)) : last_under k (a ++ b) = match last_under k b with Some x => Some x | None => last_under k a end.
  Proof.
    induction a as [|[k' x] a IH]; cbn [app last_under]; [destruct (last_under k b); reflexivity|]. rewrite IH. destruct (last_under k b); [reflexivity|]. destruct (last_under k a); reflexivity.
  Qed.
  Lemma last_in {B} k (l : list (string * B)) x : last_under k l = Some x -> In (k, x) l.
  Proof.
    induction l as [|[k' y] l IH]; cbn [last_under]; [discriminate|]. destruct (last_under k l) eqn:E; [intros H; right; apply IH; exact H|]. destruct (String.eqb_spec k' k) as [->|]; [intros H; injection H as ->; left; reflexivity|discriminate].
  Qed.
  Lemma last_none {B} k (l : list (string * B)) : last_under k l = None -> forall x, ~ In (k, x) l.
  Proof.
    induction l as [|[k' y] l IH]; cbn [last_under]; intros H x; [intros []|]. destruct (last_under k l) eqn:E; [discriminate|]. destruct (String.eqb_spec k' k) as [->|Hne]; [discriminate|]. intros [Q|Q]; [congruence|exact (IH eq_refl x Q)].
  Qed.
  (** Afterwards every name holds the array that was returned under it last. *)
  Theorem C94_last : forall cs (s u : state) log, writable cwd s -> master rank = true -> session cs s = (u, log) ->
    forall k, In k all_keys -> file u (pth s (KArray k)) = match last_under k log with Some a => Some (Array a) | None => file s (pth s (KArray k)) end.
  Proof.
    induction cs as [|[f c] cs IH]; intros s u log W Hm H k Hk; cbn [session] in H; [injection H as <- <-; reflexivity|].
    set (s0 := {| s_world := s_world s; s_config := f (s_config s); s_dir := s_dir s; s_prefix := s_prefix s |}) in *.
    assert (W0 : writable cwd s0) by exact W. assert (Hp : plain s0) by (destruct W as (_ & W1 & W2 & _); split; assumption).
    destruct (run c s0) as [t o] eqn:E. destruct (session cs t) as [u' more] eqn:Es. injection H as <- <-.
    pose proof (run_obeys toZ ofZ cwd mpi size rank prepare work work_dc average c s0 t o E) as (L & Ef & _ & _).
    assert (Ep : pth t (KArray k) = pth s (KArray k)) by exact (eff_pth cwd _ _ _ (KArray k) Ef).
    rewrite <- Ep. rewrite (IH t u' more (eff_writable cwd _ _ _ Ef W0) Hm Es k Hk). rewrite last_app. destruct (last_under k more); [reflexivity|]. rewrite Ep. change (pth s (KArray k)) with (pth s0 (KArray k)). change (file s (pth s0 (KArray k))) with (file s0 (pth s0 (KArray k))).
    destruct o as [l|e].
    - destruct (last_under k (puts (saved_as c) l)) as [a|] eqn:El.
      + exact (proj2 (C94_saved c s0 t l Hp Hm E) k a (last_in _ _ _ El)).
      + apply (C94_untouched c s0 t (Ok l) E).
        * intros j Hj. apply pth_ne; [exact Hp|exact Hk|exact (texts_known c j Hj)|discriminate].
        * intros j Hj. apply pth_ne; [exact Hp|exact Hk|exact (arrays_known c j Hj)|]. intros Q. injection Q as <-. pose proof (proj1 (C94_saved c s0 t l Hp Hm E)) as Hl. pose proof (last_none _ _ El) as Hno.
          clear - Hj Hl Hno. destruct c as [| | | | | |[|]| |[|]]; cbn in Hl; destruct l as [|a0 [|a1 [|]]]; try discriminate Hl; cbn in Hj, Hno; repeat destruct Hj as [<-|Hj]; try contradiction; first [exact (Hno a0 (or_introl eq_refl))|exact (Hno a1 (or_introl eq_refl))|exact (Hno a1 (or_intror (or_introl eq_refl)))].
    - cbn [last_under]. apply (C94_failed c s0 t e W0 E); [exact Hk|discriminate].
  Qed.
  (** The arrays are averages over all processes of the work on this process's
      share of the samples; the number of samples in the configuration is the
      least multiple of the number of processes, and nothing else changes. *)
  Theorem C94_value : forall c (s s' : state) l, 0 < size -> mpi = true \/ size = 1 -> sampled c = true -> run c s = (s', Ok l) ->
    exists v total ns, aget String.eqb (c_generic (s_config s)) nr_name = Some v /\ toZ v <= total < toZ v + size /\ total = ns * size
      /\ s_config s' = (if total =? toZ v then s_config s else set_param (s_config s) Generic nr_name (ofZ total))
      /\ value work work_dc average c ns (s_config s') l.
  Proof.
    intros c s s' l Hs Hm Hc H. apply run_ok in H as (ns & _ & _ & Hv & Hsh). unfold share in Hsh. rewrite Hc in Hsh. destruct Hsh as (v & n & H1 & H2 & H3).
    destruct (dist_sample_ok mpi size (toZ v) Hs Hm) as (total & ns' & D1 & D2 & D3 & D4). rewrite D1 in H2. injection H2 as <- <-. exists v, total, ns'. repeat split; try assumption; lia.
  Qed.
  (** Haydock recursion and wave packets run on one process only and do not
      change the configuration. *)
  Theorem C94_single : forall c (s s' : state) l, sampled c = false -> run c s = (s', Ok l) -> size = 1 /\ s_config s' = s_config s /\ exists ns, value work work_dc average c ns (s_config s) l.
  Proof.
    intros c s s' l Hc H. apply run_ok in H as (ns & _ & _ & Hv & Hsh). unfold share in Hsh. rewrite Hc in Hsh. destruct Hsh as (H1 & _ & H2). rewrite H1 in Hv. repeat split; try assumption. exists ns. exact Hv.
  Qed.
  (** A new solver refuses unknown parameters before it touches the disk. *)
  Theorem C94_illegal : forall (s : state) d p clock e, check_params (s_config s) = Err e -> new_solver cwd rank d p clock s = (s, Err e).
  Proof. intros s d p clock e H. unfold new_solver, seq_, lift. rewrite H. reflexivity. Qed.
  (** Otherwise the master makes the directory if need be and saves the
      configuration, which read_config gives back. *)
  Definition prefix_of (p : option string) (clock : string) : string := match p with Some q => q | None => clock end.
  Theorem C94_config : forall (s s' : state) d p clock, master rank = true -> new_solver cwd rank d p clock s = (s', Ok tt) ->
    d <> "" /\ s_dir s' = d /\ s_prefix s' = prefix_of p clock /\ s_config s' = s_config s /\ file s' (pth s' KConfig) = Some (Pickle (s_config s))
    /\ (forall q, q <> pth s' KConfig -> file s' q = file s q) /\ (forall q, is_dir (s_world s) q = true -> is_dir (s_world s') q = true)
    /\ forall default g, get_group (read_config default (s_config s)) g = get_group (s_config s) g.
  Proof.
    intros s s' d p clock Hm H. unfold new_solver in H. apply seq_ok in H as (t & [] & H1 & H). apply lift_ok in H1 as [-> _]. unfold set_output in H. rewrite Hm in H.
    set (s0 := {| s_world := s_world s; s_config := s_config s; s_dir := d; s_prefix := match p with Some q => q | None => clock end |}) in *.
    apply seq_ok in H as (t & [] & H1 & H). unfold save_config in H. rewrite Hm in H.
    assert (T : d <> "" /\ s_config t = s_config s /\ s_dir t = d /\ s_prefix t = prefix_of p clock /\ w_files (s_world t) = w_files (s_world s) /\ forall q, is_dir (s_world s) q = true -> is_dir (s_world t) q = true).
    { clear H. unfold on_world in H1. change (s_world s0) with (s_world s) in H1. destruct (exists_ cwd (s_world s) d) eqn:E.
      - injection H1 as <-. split; [intros ->; discriminate|]. repeat split. intros q Hq. exact Hq.
      - unfold mkdir in H1. destruct (String.eqb_spec d ""); cbn [orb] in H1; [discriminate|]. destruct (is_dir (s_world s) (removelast (resolve cwd d))); cbn [negb] in H1; [|discriminate]. injection H1 as <-. split; [assumption|]. repeat split.
        intros q Hq. unfold is_dir in *. cbn [s_world w_dirs existsb]. apply orb_prop in Hq as [->|Hq]; [reflexivity|]. rewrite Hq, !orb_true_r. reflexivity. }
    destruct T as (T0 & T1 & T2 & T3 & T4 & T5). apply write_eff in H as [C [[_ (E1 & E2 & E3 & E4)]|(e & Q & _)]]; [|discriminate].
    assert (P : resolve cwd (s_dir t ++ "/" ++ s_prefix t ++ "." ++ "config.pkl")%string = pth s' KConfig) by (unfold P_out.pth, file_of; rewrite E2, E3; reflexivity).
    rewrite P in E4. split; [exact T0|]. split; [congruence|]. split; [congruence|]. split; [congruence|]. split.
    - rewrite E4. unfold put_all. cbn [fold_left fst snd]. rewrite (aget_aset path_eqb path_eqb_iff). destruct (path_eqb_spec (pth s' KConfig) (pth s' KConfig)); [|congruence]. rewrite T1. reflexivity.
    - split; [|split].
      + intros q Hq. rewrite E4. unfold put_all. cbn [fold_left fst snd]. rewrite (aget_aset path_eqb path_eqb_iff). destruct (path_eqb_spec q (pth s' KConfig)); [congruence|]. rewrite T4. reflexivity.
      + intros q Hq. unfold is_dir in *. rewrite E1. apply T5. exact Hq.
      + intros default [| | | | |]; reflexivity.
  Qed.
  (** Only one level of directories is made. *)
  Theorem C94_nested : forall (s : state) d p clock, master rank = true -> check_params (s_config s) = Ok tt -> exists_ cwd (s_world s) d = false ->
    is_dir (s_world s) (removelast (resolve cwd d)) = false -> exists s', new_solver cwd rank d p clock s = (s', Err FileNotFoundError) /\ s_world s' = s_world s.
  Proof.
    intros s d p clock Hm Hc He Hd. unfold new_solver, seq_, lift. rewrite Hc. unfold set_output, seq_. rewrite Hm. unfold on_world. cbn [s_world]. rewrite He. unfold mkdir. rewrite Hd, orb_true_r. eexists. split; reflexivity.
  Qed.
  (** The saved configuration is that of the time of set_output: no calculation
      brings it up to date, not even one that changes the number of samples. *)
  Theorem C94_stale_refuted : forall c (s s' : state) l c0, plain s -> mpi = true -> 0 < size -> sampled c = true -> (forall n, toZ (ofZ n) = n) ->
    (exists v, aget String.eqb (c_generic (s_config s)) nr_name = Some v /\ toZ v mod size <> 0) ->
    file s (pth s KConfig) = Some (Pickle c0) -> c0 = s_config s -> run c s = (s', Ok l) ->
    file s' (pth s KConfig) = Some (Pickle c0) /\ s_config s' <> c0.
  Proof.
    intros c s s' l c0 Hp Hm Hs Hc Hto (v & Hv & Hne) Hf -> H. split.
    - rewrite <- Hf. apply (C94_untouched c s s' (Ok l) H).
      + intros k Hk. apply pth_ne; [exact Hp|exact I|exact (texts_known c k Hk)|discriminate].
      + intros k Hk. apply pth_ne; [exact Hp|exact I|exact (arrays_known c k Hk)|discriminate].
    - destruct (C94_value c s s' l Hs (or_introl Hm) Hc H) as (v' & total & ns & V1 & V2 & V3 & V4 & _). rewrite Hv in V1. injection V1 as <-. rewrite V4.
      destruct (Z.eqb_spec total (toZ v)) as [E|E]; [rewrite <- E, V3, Z.mod_mul in Hne by lia; congruence|]. intros Q. assert (Q' : aget String.eqb (c_generic (set_param (s_config s) Generic nr_name (ofZ total))) nr_name = Some v) by (rewrite Q; exact Hv).
      unfold set_param, set_group in Q'. cbn [c_generic get_group] in Q'. rewrite (aget_aset String.eqb String.eqb_eq) in Q'. rewrite String.eqb_refl in Q'. injection Q' as Q'. apply E. rewrite <- Q', Hto. reflexivity.
  Qed.
  (** calc_corr_dc_cond replaces the file of calc_corr_dos. *)
  Theorem C94_dc_refuted : forall (s s1 s2 : state) a b d, plain s -> master rank = true -> run Dos s = (s1, Ok [a]) -> run Dc s1 = (s2, Ok [b; d]) ->
    file s1 (pth s (KArray "corr_DOS")) = Some (Array a) /\ file s2 (pth s (KArray "corr_DOS")) = Some (Array b).
  Proof.
    intros s s1 s2 a b d Hp Hm H1 H2. split; [exact (proj2 (C94_saved Dos s s1 [a] Hp Hm H1) "corr_DOS" a (or_introl eq_refl))|].
    pose proof (C94_untouched Dos s s1 _ H1) as (_ & E2 & E3 & _). assert (Hp1 : plain s1) by (unfold plain; rewrite E2, E3; exact Hp).
    replace (pth s (KArray "corr_DOS")) with (pth s1 (KArray "corr_DOS")) by (unfold P_out.pth, file_of; rewrite E2, E3; reflexivity).
    exact (proj2 (C94_saved Dc s1 s2 [b; d] Hp1 Hm H2) "corr_DOS" b (or_introl eq_refl)).
  Qed.
  (** The text of the Fortran subroutine has the same name on every process: it
      is that of the process which wrote last. *)
  Theorem C94_text_refuted : forall (s s' : state) l, plain s -> run Dos s = (s', Ok l) -> exists ns, file s' (pth s (KText "corr_DOS")) = Some (Text ns rank).
  Proof.
    intros s s' l Hp H. apply run_ok in H as (ns & (_ & _ & _ & E) & _). exists ns. rewrite E. apply (put_all_hit []). intros e He. destruct (master rank); [|destruct He]. unfold array_log in He. apply in_map_iff in He as ((k & a) & <- & He). cbn [fst].
    apply pth_ne; [exact Hp|exact (proj1 (puts_known Dos l k a He))|cbn; tauto|discriminate].
  Qed.
  (** Without a prefix, solvers made within one second have the same files. *)
  Theorem C94_same_second_refuted : forall (s s' t t' : state) d clock, master rank = true -> new_solver cwd rank d None clock s = (s', Ok tt) -> new_solver cwd rank d None clock t = (t', Ok tt) -> forall n, pth s' n = pth t' n.
  Proof.
    intros s s' t t' d clock Hm H1 H2 n. destruct (C94_config _ _ _ _ _ Hm H1) as (_ & D1 & P1 & _). destruct (C94_config _ _ _ _ _ Hm H2) as (_ & D2 & P2 & _). unfold P_out.pth, file_of. rewrite D1, D2, P1, P2. reflexivity.
  Qed.
End Theorems.
Print Assumptions C94_names.
Print Assumptions C94_place.
Print Assumptions C94_saved.
Print Assumptions C94_untouched.
Print Assumptions C94_failed.
Print Assumptions C94_worker.
Print Assumptions C94_last.
Print Assumptions C94_value.
Print Assumptions C94_single.
Print Assumptions C94_illegal.
Print Assumptions C94_config.
Print Assumptions C94_nested.
Print Assumptions C94_stale_refuted.
Print Assumptions C94_dc_refuted.
Print Assumptions C94_text_refuted.
Print Assumptions C94_same_second_refuted.

(** ** Examples *)
Example spellings : resolve ["home"] "out" = ["home"; "out"] /\ resolve ["home"] "./out/" = ["home"; "out"] /\ resolve ["home"] "/home//x/../out" = ["home"; "out"] /\ resolve ["home"] "" = ["home"].
Proof. repeat split. Qed.
(** A master of two processes with 3 samples: DOS, then DC, then DOS again with
    a configuration whose preparation fails. *)
Section Demo.
  Definition cfg3 : @config Z := new_config (fun g k => if String.eqb k nr_name then 3 else 0).
  Definition start : @state Z Z := {| s_world := {| w_dirs := [["home"]]; w_files := [] |}; s_config := cfg3; s_dir := ""; s_prefix := "" |}.
  Definition prep (w : string) (c : @config Z) : res unit := match aget String.eqb (c_generic c) "seed" with Some 0 => Ok tt | _ => Err ValueError end.
  Definition wk (w : string) (ns : Z) (c : @config Z) : res Z := Ok (10 * ns).
  Definition wdc (ns : Z) (c : @config Z) : res (Z * Z) := Ok (7 * ns, 8 * ns).
  Definition opened := fst (new_solver ["home"] 0 "out" (Some "run") "1700000000" start).
  Definition demo := session (fun z => z) (fun z => z) ["home"] true 2 0 prep wk wdc (fun a => a + 1)
    [(fun c => c, Dos); (fun c => c, Dc); (fun c => set_param c Generic "seed" 5, Dos); (fun c => c, Qe true)] opened.
  Example demo_log : snd demo = [("corr_DOS", 21); ("corr_DOS", 15); ("corr_DC", 17)]. Proof. vm_compute. reflexivity. Qed.
  Example demo_files : map fst (w_files (s_world (fst demo))) = [["home"; "out"; "run.config.pkl"]; ["home"; "out"; "run.corr_DOS"]; ["home"; "out"; "run.corr_DOS.npy"]; ["home"; "out"; "run.corr_DC"]; ["home"; "out"; "run.corr_DC.npy"]].
  Proof. vm_compute. reflexivity. Qed.
  Example demo_dos : read ["home"] (s_world (fst demo)) "out/run.corr_DOS.npy" = Some (Array 15). Proof. vm_compute. reflexivity. Qed.
  Example demo_samples : aget String.eqb (c_generic (s_config (fst demo))) nr_name = Some 4. Proof. vm_compute. reflexivity. Qed.
  Example demo_writable : writable ["home"] opened.
  Proof. split; [reflexivity|]. split; [discriminate|]. split; [cbn; repeat split; discriminate|]. intros [|k|k] H; [reflexivity| |]; cbn in H; repeat destruct H as [<-|H]; try contradiction; reflexivity. Qed.
  Example demo_nested : snd (new_solver ["home"] 0 "a/b" None "1700000000" start) = Err FileNotFoundError. Proof. vm_compute. reflexivity. Qed.
End Demo.
