(** Proofs about the loops over time and samples. *)
From Verif Require Import Prelude Vec Cx M_super M_sample M_par M_prop M_tbpm S_prop S_tbpm L_base L_super L_csr L_par L_par2 L_prop L_prop2.

Lemma span_from (a len : nat) : span (Z.of_nat a, Z.of_nat (a + len)) = map Z.of_nat (seq a len).
Proof. rewrite span_seq. do 2 f_equal. lia. Qed.

Lemma upd_tab' {A} N (f : nat -> A) g z : 0 <= z < Z.of_nat N -> upd g (tab N f) z = Ok (tab N (fun j => if Z.of_nat j =? z then g (f j) else f j)).
Proof.
  intros H. rewrite <- (Z2Nat.id z) by lia. rewrite upd_tab by lia. f_equal. apply tab_ext. intros j _.
  destruct (Nat.eqb j (Z.to_nat z)) eqn:Hj.
  - apply Nat.eqb_eq in Hj. subst j. replace (Z.of_nat (Z.to_nat z) =? Z.of_nat (Z.to_nat z)) with true by lia. reflexivity.
  - apply Nat.eqb_neq in Hj. replace (Z.of_nat j =? Z.of_nat (Z.to_nat z)) with false by lia. reflexivity.
Qed.

(** ** Time *)
Section Time.
  Context {W C : Type} (chk : Z) (check : W -> res unit) (advance : W -> res W) (add : W -> res (C -> C)).
  Context (x : nat -> W) (g : nat -> C -> C) (fails : W -> bool).
  Context (Hcheck : forall w, check w = if fails w then Err RuntimeError else Ok tt).
  Context (lo : nat) (Hadv : forall t, (lo <= t)%nat -> advance (x t) = Ok (x (S t))) (Hadd : forall t, add (x t) = Ok (g t)).
  Definition checked (a len : nat) : bool := (Z.of_nat a <=? chk) && (chk <? Z.of_nat (a + len)) && fails (x (Z.to_nat (chk - 1))).
  Lemma time_loop_tab shift a len N f : (lo <= a)%nat -> 0 <= shift <= Z.of_nat (S a) -> Z.of_nat (S a + len) - shift <= Z.of_nat N ->
    time_loop chk check advance add shift (Z.of_nat (S a)) (Z.of_nat (a + len)) (x a) (tab N f) =
    if checked (S a) len then Err RuntimeError
    else Ok (tab N (fun j => if (Z.of_nat (S a) <=? Z.of_nat j + shift) && (Z.of_nat j + shift <? Z.of_nat (S a + len)) then g (Z.to_nat (Z.of_nat j + shift)) (f j) else f j)).
  Proof.
    intros Hlo Hs HN. unfold time_loop. replace (Z.of_nat (a + len) + 1) with (Z.of_nat (S a + len)) by lia. rewrite span_from.
    match goal with |- bind (loop ?b _ _) _ = _ => set (body := b) end.
    assert (HH : loop body (map Z.of_nat (seq (S a) len)) (x a, tab N f) =
      if checked (S a) len then Err RuntimeError
      else Ok (x (a + len)%nat, tab N (fun j => if (Z.of_nat (S a) <=? Z.of_nat j + shift) && (Z.of_nat j + shift <? Z.of_nat (S a + len)) then g (Z.to_nat (Z.of_nat j + shift)) (f j) else f j))).
    { induction len as [|len IH].
      - cbn [seq map]. rewrite loop_nil. unfold checked. replace ((Z.of_nat (S a) <=? chk) && (chk <? Z.of_nat (S a + 0))) with false by lia. cbn [andb].
        rewrite Nat.add_0_r. do 2 f_equal. apply tab_ext. intros j _. cbv zeta.
        replace ((Z.of_nat (S a) <=? Z.of_nat j + shift) && (Z.of_nat j + shift <? Z.of_nat (S a + 0))) with false by lia. reflexivity.
      - assert (HB : body (x (a + len)%nat, tab N (fun j => if (Z.of_nat (S a) <=? Z.of_nat j + shift) && (Z.of_nat j + shift <? Z.of_nat (S a + len)) then g (Z.to_nat (Z.of_nat j + shift)) (f j) else f j)) (Z.of_nat (S a + len)) =
          if (Z.of_nat (S a + len) =? chk) && fails (x (a + len)%nat) then Err RuntimeError
          else Ok (x (a + S len)%nat, tab N (fun j => if (Z.of_nat (S a) <=? Z.of_nat j + shift) && (Z.of_nat j + shift <? Z.of_nat (S a + S len)) then g (Z.to_nat (Z.of_nat j + shift)) (f j) else f j))).
        { unfold body. cbn [fst snd].
          transitivity (bind (if (Z.of_nat (S a + len) =? chk) && fails (x (a + len)%nat) then Err RuntimeError else Ok tt) (fun _ : unit =>
            Ok (x (a + S len)%nat, tab N (fun j => if (Z.of_nat (S a) <=? Z.of_nat j + shift) && (Z.of_nat j + shift <? Z.of_nat (S a + S len)) then g (Z.to_nat (Z.of_nat j + shift)) (f j) else f j))));
            [|destruct (_ && _); reflexivity].
          rewrite Hcheck, Hadv by lia. cbn [bind]. rewrite Hadd. cbn [bind]. rewrite upd_tab' by lia. cbn [bind]. rewrite <- plus_n_Sm.
          apply f_equal2; [destruct (Z.of_nat (S a + len) =? chk), (fails (x (a + len)%nat)); reflexivity|].
          match goal with |- (fun _ => Ok (_, ?u)) = (fun _ => Ok (_, ?v)) => replace u with v; [reflexivity|] end.
          apply tab_ext. intros j Hj. cbv zeta. symmetry.
          destruct (Z.of_nat j =? Z.of_nat (S a + len) - shift) eqn:H2.
          * replace ((Z.of_nat (S a) <=? Z.of_nat j + shift) && (Z.of_nat j + shift <? Z.of_nat (S a + len))) with false by lia.
            replace ((Z.of_nat (S a) <=? Z.of_nat j + shift) && (Z.of_nat j + shift <? Z.of_nat (S a + S len))) with true by lia.
            replace (Z.to_nat (Z.of_nat j + shift)) with (S (a + len)) by lia. reflexivity.
          * destruct ((Z.of_nat (S a) <=? Z.of_nat j + shift) && (Z.of_nat j + shift <? Z.of_nat (S a + len))) eqn:H3.
            -- replace ((Z.of_nat (S a) <=? Z.of_nat j + shift) && (Z.of_nat j + shift <? Z.of_nat (S a + S len))) with true by lia. reflexivity.
            -- replace ((Z.of_nat (S a) <=? Z.of_nat j + shift) && (Z.of_nat j + shift <? Z.of_nat (S a + S len))) with false by lia. reflexivity. }
        rewrite seq_S, map_app, loop_app, IH by lia. unfold checked.
        destruct ((Z.of_nat (S a) <=? chk) && (chk <? Z.of_nat (S a + len))) eqn:H1.
        + replace ((Z.of_nat (S a) <=? chk) && (chk <? Z.of_nat (S a + S len))) with true by lia. cbn [andb].
          destruct (fails (x (Z.to_nat (chk - 1)))); [reflexivity|]. cbn [bind map]. rewrite loop_cons, HB.
          replace (Z.of_nat (S a + len) =? chk) with false by lia. cbn [andb bind]. rewrite loop_nil. reflexivity.
        + cbn [andb bind map]. rewrite loop_cons, HB. destruct (Z.of_nat (S a + len) =? chk) eqn:H4.
          * replace ((Z.of_nat (S a) <=? chk) && (chk <? Z.of_nat (S a + S len))) with true by lia. cbn [andb].
            replace (Z.to_nat (chk - 1)) with (a + len)%nat by lia. destruct (fails (x (a + len)%nat)); [reflexivity|]. cbn [bind]. rewrite loop_nil. reflexivity.
          * replace ((Z.of_nat (S a) <=? chk) && (chk <? Z.of_nat (S a + S len))) with false by lia. cbn [andb bind]. rewrite loop_nil. reflexivity. }
    rewrite HH. destruct (checked (S a) len); reflexivity.
  Qed.
End Time.

(** ** Samples *)
Fixpoint first_fail (fail : Z -> option exn) (l : list Z) : option exn :=
  match l with [] => None | s :: r => match fail s with Some e => Some e | None => first_fail fail r end end.
Lemma first_fail_app fail l l' : first_fail fail (l ++ l') = match first_fail fail l with Some e => Some e | None => first_fail fail l' end.
Proof. induction l as [|s l IH]; cbn [first_fail app]; [reflexivity|]. destruct (fail s); [reflexivity|exact IH]. Qed.
Lemma first_fail_None fail l : first_fail fail l = None <-> forall s, In s l -> fail s = None.
Proof.
  induction l as [|s l IH]; cbn [first_fail]; [split; [intros _ s []|reflexivity]|]. destruct (fail s) eqn:Hs.
  - split; [discriminate|]. intros H. rewrite (H s) in Hs by (left; reflexivity). discriminate.
  - rewrite IH. split; [intros H s' [<-|Hi]; [exact Hs|apply H, Hi]|intros H s' Hi; apply H; right; exact Hi].
Qed.
Lemma first_fail_Some fail l e : first_fail fail l = Some e -> exists s, In s l /\ fail s = Some e.
Proof.
  induction l as [|s l IH]; cbn [first_fail]; [discriminate|]. destruct (fail s) eqn:Hs.
  - intros [= ->]. exists s. split; [left; reflexivity|exact Hs].
  - intros H. destruct (IH H) as (s' & Hi & H'). exists s'. split; [right; exact Hi|exact H'].
Qed.

Section Samples.
  Context {E : Type} {SE : Scalar E} (EL : ScalarLaws E) (inv : E -> E) (state : Z -> list E).
  Add Ring ering3 : (s_ring E EL).
  Context {C I : Type} (mk : (I -> E) -> C) (Hmk : forall f g, (forall i, f i = g i) -> mk f = mk g).
  Context (ns : Z) (body : list E -> C -> res C) (fail : Z -> option exn) (val : Z -> I -> E).
  Context (Hbody : forall s f, body (state s) (mk f) =
             match fail s with None => Ok (mk (fun i => sadd (f i) (per inv ns (val s i)))) | Some e => Err e end).
  (** The samples of a process. *)
  Definition seeds (seed rank : Z) : list Z := map (fun k => seed * (Z.of_nat k + 1 + rank * ns)) (seq 0 (Z.to_nat ns)).
  Lemma over_samples_tab seed rank f :
    over_samples state seed ns rank body (mk f) =
    match first_fail fail (seeds seed rank) with
    | None => Ok (mk (fun i => sadd (f i) (per inv ns (esum (map (fun s => val s i) (seeds seed rank))))))
    | Some e => Err e
    end.
  Proof.
    unfold over_samples. unfold span. cbn [fst snd]. replace (ns + 1 - 1) with ns by lia. unfold seeds, zrange.
    generalize (Z.to_nat ns). intros len. induction len as [|len IH].
    - cbn [seq map first_fail]. rewrite loop_nil. f_equal. apply Hmk. intros i. rewrite esum_nil by assumption. unfold per. ring.
    - rewrite seq_S, !map_app, loop_app, IH, first_fail_app. destruct (first_fail fail _) as [e|]; [reflexivity|]. cbn [bind map first_fail plus].
      rewrite loop_cons. replace (1 + Z.of_nat len) with (Z.of_nat len + 1) by lia. rewrite Hbody.
      destruct (fail (seed * (Z.of_nat len + 1 + rank * ns))) as [e|]; [reflexivity|]. cbn [bind]. rewrite loop_nil. f_equal. apply Hmk. intros i.
      rewrite map_app, esum_app by assumption. cbn [map]. rewrite esum_cons, esum_nil by assumption. unfold per. ring.
  Qed.
End Samples.

(** ** Processes *)
Lemma grow_ok size : 0 < size -> forall fuel n, (Z.to_nat ((- n) mod size) < fuel)%nat ->
  exists n', grow fuel n size = Ok n' /\ n <= n' < n + size /\ n' mod size = 0.
Proof.
  intros Hs. induction fuel as [|fuel IH]; intros n Hf; [lia|]. cbn [grow]. destruct (n mod size =? 0) eqn:Hm.
  - exists n. split; [reflexivity|]. lia.
  - assert (H1 : (- n) mod size <> 0) by (intros H; apply Z.eqb_neq in Hm; apply Hm; apply Z.mod_opp_l_z in H; rewrite ?Z.opp_involutive in H; lia).
    pose proof (Z.mod_pos_bound (- n) size Hs) as Hb.
    assert (H2 : (- (n + 1)) mod size = (- n) mod size - 1).
    { symmetry. apply Z.mod_unique with (q := (- n) / size); [left; lia|]. pose proof (Z.div_mod (- n) size). lia. }
    destruct (IH (n + 1)) as (n' & Hg & Hr & Hz); [lia|]. exists n'. split; [exact Hg|]. split; [|exact Hz].
    assert (n' <> n + size); [|lia]. intros ->. apply Z.eqb_neq in Hm. apply Hm. rewrite <- Hz. rewrite <- (Z_mod_plus_full n 1 size). f_equal. lia.
Qed.

Lemma dist_sample_ok mpi size n : 0 < size -> mpi = true \/ size = 1 ->
  exists total ns, dist_sample mpi size n = Ok (total, ns) /\ n <= total < n + size /\ total mod size = 0 /\ total = ns * size.
Proof.
  intros Hs Hm. unfold dist_sample. destruct mpi.
  - destruct (grow_ok size Hs (S (Z.to_nat size)) n) as (n' & Hg & Hr & Hz); [pose proof (Z.mod_pos_bound (- n) size Hs); lia|].
    exists n', (n' / size). rewrite Hg. cbn [bind]. split; [reflexivity|]. split; [exact Hr|]. split; [exact Hz|].
    pose proof (Z.div_mod n' size). lia.
  - destruct Hm as [Hm| ->]; [discriminate|]. exists n, n. split; [reflexivity|]. split; [lia|]. split; [apply Z.mod_1_r|lia].
Qed.

Lemma all_seeds seed ns (k : nat) : 0 <= ns ->
  concat (map (seeds ns seed) (map Z.of_nat (seq 0 k))) = map (fun j => seed * (Z.of_nat j + 1)) (seq 0 (k * Z.to_nat ns)).
Proof.
  intros Hn. induction k as [|k IH]; [reflexivity|]. rewrite seq_S, !map_app, concat_app, IH. cbn [map concat plus]. rewrite app_nil_r.
  replace (S k * Z.to_nat ns)%nat with (k * Z.to_nat ns + Z.to_nat ns)%nat by lia. rewrite seq_app, map_app. apply f_equal2; [reflexivity|]. cbn [plus].
  unfold seeds. apply list_ext; rewrite !map_length, !seq_length; [reflexivity|]. intros j Hj.
  rewrite !nth_error_map, !(nth_error_nth' _ 0%nat) by (rewrite seq_length; exact Hj). rewrite !seq_nth by exact Hj. cbn [option_map]. f_equal. f_equal. nia.
Qed.

Section Ranks.
  Context {E : Type} {SE : Scalar E} (EL : ScalarLaws E) (inv : E -> E) (Hinv : forall z, z <> 0 -> smul (sZ z) (inv (sZ z)) = s1).
  Add Ring ering4 : (s_ring E EL).
  Lemma inv_mul a b : a <> 0 -> b <> 0 -> smul (inv (sZ a)) (inv (sZ b)) = inv (sZ (a * b)).
  Proof.
    intros Ha Hb. assert (Hab : a * b <> 0) by nia.
    transitivity (smul (smul (sZ (a * b)) (inv (sZ (a * b)))) (smul (inv (sZ a)) (inv (sZ b)))); [rewrite Hinv by exact Hab; ring|].
    rewrite (sZ_mul E EL a b) at 1.
    transitivity (smul (smul (smul (sZ a) (inv (sZ a))) (smul (sZ b) (inv (sZ b)))) (inv (sZ (a * b)))); [ring|]. rewrite !Hinv by assumption. ring.
  Qed.
  Context {I : Type} (run : Z -> Z -> res (arr I E)) (fail : Z -> option exn) (val : Z -> I -> E) (seed : Z) (ok : I -> Prop).
  Context (Hrun : forall rank ns, 0 <= rank -> 0 < ns ->
    match first_fail fail (seeds ns seed rank) with
    | None => exists a, run rank ns = Ok a /\ forall i, ok i -> a i = per inv ns (esum (map (fun s => val s i) (seeds ns seed rank)))
    | Some e => run rank ns = Err e
    end).

  Lemma ranks_run ns (k : nat) : 0 < ns ->
    match first_fail fail (concat (map (seeds ns seed) (map Z.of_nat (seq 0 k)))) with
    | None => exists l, mapM (fun r => run r ns) (map Z.of_nat (seq 0 k)) = Ok l /\ length l = k /\
                (forall i, ok i -> total_arr l i = per inv ns (esum (map (fun s => val s i) (concat (map (seeds ns seed) (map Z.of_nat (seq 0 k))))))) /\
                (k = 1%nat -> forall a i, In a l -> ok i -> a i = per inv ns (esum (map (fun s => val s i) (concat (map (seeds ns seed) (map Z.of_nat (seq 0 k)))))))
    | Some e => mapM (fun r => run r ns) (map Z.of_nat (seq 0 k)) = Err e
    end.
  Proof.
    intros Hn. induction k as [|k IH].
    - cbn [seq map concat first_fail]. exists []. split; [reflexivity|]. split; [reflexivity|]. split; [|discriminate].
      intros i _. unfold total_arr. cbn [map]. rewrite esum_nil by assumption. unfold per. ring.
    - rewrite seq_S, !map_app, concat_app, first_fail_app. cbn [map concat plus]. rewrite app_nil_r.
      assert (Happ : forall (l l' : list Z), mapM (fun r => run r ns) (l ++ l') = bind (mapM (fun r => run r ns) l) (fun x => bind (mapM (fun r => run r ns) l') (fun y => Ok (x ++ y)))).
      { intros l l'. induction l as [|r l IHl]; cbn [mapM app]; [destruct (mapM _ l'); reflexivity|]. destruct (run r ns); cbn [bind]; [|reflexivity].
        rewrite IHl. destruct (mapM _ l); cbn [bind]; [|reflexivity]. destruct (mapM _ l'); reflexivity. }
      rewrite Happ. destruct (first_fail fail (concat _)) as [e|].
      + rewrite IH. reflexivity.
      + destruct IH as (l & Hl & Hlen & Htot & _). rewrite Hl. cbn [bind mapM]. pose proof (Hrun (Z.of_nat k) ns ltac:(lia) Hn) as Hr.
        destruct (first_fail fail (seeds ns seed (Z.of_nat k))) as [e|]; [rewrite Hr; reflexivity|]. destruct Hr as (a & Ha & Hval). rewrite Ha. cbn [bind].
        exists (l ++ [a]). split; [reflexivity|]. split; [rewrite app_length, Hlen; cbn; lia|].
        assert (HT : forall i, ok i -> total_arr (l ++ [a]) i = per inv ns (esum (map (fun s => val s i) (concat (map (seeds ns seed) (map Z.of_nat (seq 0 k))) ++ seeds ns seed (Z.of_nat k))))).
        { intros i Hi. unfold total_arr in *. rewrite !map_app, !esum_app by assumption. rewrite Htot by exact Hi. cbn [map].
          rewrite esum_cons, esum_nil by assumption. rewrite Hval by exact Hi. unfold per. ring. }
        split; [exact HT|]. intros Hk b i Hb Hi. destruct l as [|b0 l]; [|cbn [length] in Hlen; lia]. cbn [length] in Hlen. subst k. destruct Hb as [<-|[]].
        cbn [seq map concat app]. rewrite Hval by exact Hi. reflexivity.
  Qed.

  Lemma sampled_ok mpi size n : 0 < size -> mpi = true \/ size = 1 -> 0 < n ->
    exists total, rounded n size total /\
    let all := map (fun j => seed * (Z.of_nat j + 1)) (seq 0 (Z.to_nat total)) in
    match first_fail fail all with
    | None => exists l, sampled inv mpi size n run = Ok (total, l) /\ Z.of_nat (length l) = size /\
                forall a i, In a l -> ok i -> a i = mean inv total (fun s => val (seed * s) i)
    | Some e => sampled inv mpi size n run = Err e
    end.
  Proof.
    intros Hs Hm Hn. unfold sampled. destruct (dist_sample_ok mpi size n Hs Hm) as (total & ns & Hd & Hr & Hz & Ht). rewrite Hd. cbn [bind fst snd].
    assert (Hns : 0 < ns) by nia. exists total. split; [split; assumption|]. cbv zeta. pose proof (ranks_run ns (Z.to_nat size) Hns) as HR.
    rewrite (all_seeds seed ns) in HR by lia. replace (Z.to_nat size * Z.to_nat ns)%nat with (Z.to_nat total) in HR by (subst total; rewrite Z2Nat.inj_mul by lia; lia).
    unfold ranks. change (zrange (Z.to_nat size)) with (map Z.of_nat (seq 0 (Z.to_nat size))).
    set (all := map (fun j => seed * (Z.of_nat j + 1)) (seq 0 (Z.to_nat total))) in *.
    destruct (first_fail fail all) as [e|]; [rewrite HR; reflexivity|]. destruct HR as (l & Hl & Hlen & Htot & Hone). rewrite Hl. cbn [bind].
    eexists. split; [reflexivity|]. unfold all_average. split; [destruct mpi; rewrite ?map_length, Hlen; lia|].
    assert (Hsum : forall i, esum (map (fun s => val s i) all) = sum_to (Z.to_nat total) (fun k => val (seed * (Z.of_nat k + 1)) i)).
    { intros i. unfold all, sum_to. rewrite map_map. reflexivity. }
    intros a i Ha Hi. unfold mean. destruct mpi.
    - apply in_map_iff in Ha. destruct Ha as (b & <- & _). rewrite Htot by exact Hi. rewrite Hlen, Z2Nat.id by lia. rewrite Hsum. unfold per.
      replace (inv (sZ total)) with (smul (inv (sZ ns)) (inv (sZ size))) by (rewrite inv_mul by lia; rewrite Ht; reflexivity). ring.
    - destruct Hm as [Hm|Hm]; [discriminate|]. rewrite (Hone ltac:(lia) a i Ha Hi), Hsum. unfold per. do 3 f_equal. nia.
  Qed.
End Ranks.
