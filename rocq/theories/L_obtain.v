(** Every obtainable cell satisfies the invariant. *)
From Verif Require Import Prelude Vec M_hop M_pc M_index M_super M_build S_pc S_index S_super S_build
  L_base L_hop L_pc L_index L_super L_super2 L_super3 L_super4 L_build L_build2 L_merge.

Section Obtain.
  Context {E T W L : Type} {ST : Scalar T} (conj : E -> E) (conj_conj : forall e, conj (conj e) = e)
          (sdivZ : T -> Z -> T)
          (c2f : mat T -> vec T -> vec T -> vec T)
          (lat_mismatch : mat T -> mat T -> bool) (ext_ge : T -> T -> bool).
  Notation gcell := (gcell E T W L).
  Notation pc := (pc E T W L).
  Definition okInv (r : res pc) : Prop := forall p, r = Ok p -> Inv p.

  Lemma lift_orb (p : pc) x w l : Inv p -> okInv (lift1 (add_orbital s0 p x w l)).
  Proof.
    intros H q Hq. unfold lift1 in Hq.
    assert (Hs := proj1 (step_refines conj s0 conj_conj p (OpAddOrb x w l) H I)). cbn [step] in Hs.
    destruct (snd (add_orbital s0 p x w l)); [|discriminate]. injection Hq as <-. exact Hs.
  Qed.
  Lemma lift_hop (p : pc) rn i j e : Inv p -> okInv (lift1 (add_hopping conj p rn i j e)).
  Proof.
    intros H q Hq. unfold lift1 in Hq.
    assert (Hs := proj1 (step_refines conj s0 conj_conj p (OpAddHop rn i j e) H I)). cbn [step] in Hs.
    destruct (snd (add_hopping conj p rn i j e)); [|discriminate]. injection Hq as <-. exact Hs.
  Qed.

  Lemma fold_ok {A} (f : res pc -> A -> res pc) l : (forall acc x, okInv acc -> okInv (f acc x)) ->
    forall acc, okInv acc -> okInv (fold_left f l acc).
  Proof. intros Hf. induction l as [|x l IH]; intros acc H; [exact H|]. cbn [fold_left]. apply IH, Hf, H. Qed.

  Lemma add_terms_inv ob ok l acc : okInv acc -> okInv (add_terms conj ob ok l acc).
  Proof.
    unfold add_terms. revert acc. apply fold_ok. intros acc [[r [i j]] e] H. destruct acc as [p|]; [|intros q Hq; discriminate].
    cbn [bind]. apply lift_hop. apply H. reflexivity.
  Qed.

  Lemma Inv_set_orbs (p : pc) os : Inv p -> length os = length (orbs p) -> Inv (set_orbs p os).
  Proof. intros H Hl. unfold Inv, num_orb in *. cbn [set_orbs orbs hop]. rewrite Hl. exact H. Qed.

  Lemma reset_inv lat org (c : gcell) : Inv (g_pc c) -> Inv (g_pc (fst (reset_lattice c2f lat org c))).
  Proof.
    intros H. unfold reset_lattice. destruct (locked (g_pc c)); [exact H|]. cbn [fst g_pc].
    apply Inv_set_orbs; [exact H|]. apply map_length.
  Qed.

  Lemma In_set_nth {A} k (l : list A) v x : In x (set_nth k l v) -> x = v \/ In x l.
  Proof.
    revert k. induction l as [|a l IH]; intros [|k] H; cbn [set_nth] in H; [destruct H|destruct H| |].
    - destruct H as [<-|H]; [left; reflexivity|right; right; exact H].
    - destruct H as [<-|H]; [right; left; reflexivity|]. destruct (IH _ H) as [->|Hx]; [left; reflexivity|right; right; exact Hx].
  Qed.

  Lemma merge_orbs_inv lat org cs : forall h (p : pc), (forall c, In c h -> Inv (g_pc c)) -> Inv p ->
    (forall c, In c (fst (merge_orbs c2f lat org h p cs)) -> Inv (g_pc c)) /\ okInv (snd (merge_orbs c2f lat org h p cs)).
  Proof.
    induction cs as [|k cs IH]; intros h p Hh Hp; cbn [merge_orbs].
    - split; [exact Hh|]. intros q Hq. injection Hq as <-. exact Hp.
    - destruct (nth_error h k) as [c|] eqn:Hc; [|split; [exact Hh|intros q Hq; discriminate]].
      pose proof (reset_inv lat org c (Hh c (nth_error_In _ _ Hc))) as Hr.
      destruct (reset_lattice c2f lat org c) as [c' r] eqn:He. cbn [fst] in Hr.
      assert (Hh' : forall x, In x (set_nth k h c') -> Inv (g_pc x)).
      { intros x Hx. apply In_set_nth in Hx. destruct Hx as [->|Hx]; auto. }
      destruct r as [u|x]; [|split; [exact Hh'|intros q Hq; discriminate]].
      assert (Hf : okInv (fold_left (fun acc o => bind acc (fun p =>
                  let '(x, y, z) := position o in lift1 (add_orbital s0 p [x; y; z] (energy o) (label o))))
                  (orbs (g_pc c')) (Ok p))).
      { apply fold_ok; [|intros q Hq; injection Hq as <-; exact Hp].
        intros acc o Ha. destruct acc as [a|]; [|intros q Hq; discriminate]. cbn [bind].
        destruct (position o) as [[x y] z]. apply lift_orb. apply Ha. reflexivity. }
      destruct (fold_left _ (orbs (g_pc c')) (Ok p)) as [p'|x]; [|split; [exact Hh'|intros q Hq; discriminate]].
      apply IH; [exact Hh'|]. apply Hf. reflexivity.
  Qed.

  Lemma merge_inv (h : list gcell) args : (forall c, In c h -> Inv (g_pc c)) ->
    (forall c, In c (fst (merge conj c2f lat_mismatch ext_ge h args)) -> Inv (g_pc c)) /\
    (forall m, snd (merge conj c2f lat_mismatch ext_ge h args) = Ok m -> Inv (g_pc m)).
  Proof.
    intros Hh. unfold merge. destruct args as [|a args]; [split; [exact Hh|discriminate]|].
    destruct (parse (a :: args)) as [[cs hs]|x]; [|split; [exact Hh|discriminate]].
    destruct cs as [|k0 ks]; [split; [exact Hh|discriminate]|].
    destruct (nth_error h k0) as [c0|]; [|split; [exact Hh|discriminate]].
    destruct (mapM _ (k0 :: ks)) as [cells|]; [|split; [exact Hh|discriminate]].
    destruct (existsb _ cells); [split; [exact Hh|discriminate]|].
    destruct (existsb _ hs); [split; [exact Hh|discriminate]|].
    destruct (merge_orbs_inv (g_lat c0) (g_org c0) (k0 :: ks) h pc_empty Hh Inv_empty) as [H1 H2].
    destruct (merge_orbs c2f (g_lat c0) (g_org c0) h pc_empty (k0 :: ks)) as [h' rp]. cbn [fst snd] in H1, H2.
    destruct rp as [p|x]; [|split; [exact H1|discriminate]]. cbn [fst snd].
    split; [exact H1|].
    match goal with |- forall m, match ?r with Ok _ => _ | Err _ => _ end = _ -> _ => assert (Hr : okInv r); [|intros m Hm; destruct r as [q|]; [|discriminate]; injection Hm as <-; apply Hr; reflexivity] end.
    apply fold_ok.
    - intros acc q Ha. destruct (index_of _ _); [|intros p' Hp'; discriminate]. destruct (index_of _ _); [|intros p' Hp'; discriminate].
      apply add_terms_inv, Ha.
    - apply fold_ok; [|exact H2]. intros acc q Ha. destruct (nth_error h' (snd q)); [apply add_terms_inv, Ha|exact Ha].
  Qed.

  Theorem obtainable_inv (c : gcell) : obtainable conj sdivZ c2f lat_mismatch ext_ge c -> Inv (g_pc c).
  Proof.
    induction 1 as [lat org ext|c os H IH Hh|c dim c' H IH He|h args h' m H IH Hm|h args c H IH Hin].
    - apply Inv_empty.
    - cbn [g_pc]. apply (run_refines conj s0 conj_conj os _ IH Hh).
    - destruct (check_dim dim) as [[[da db] dc]|] eqn:Hd; [|unfold extend in He; rewrite Hd in He; discriminate].
      destruct ((da <? 1) || (db <? 1) || (dc <? 1)) eqn:Hp; [unfold extend in He; rewrite Hd, Hp in He; discriminate|].
      destruct (extend_ok conj conj_conj sdivZ c dim da db dc Hd ltac:(lia) ltac:(lia) ltac:(lia) IH) as (c2 & H1 & _ & _ & _ & _ & _ & H7 & _).
      rewrite He in H1. injection H1 as <-. exact H7.
    - destruct (merge_inv h args IH) as [_ H2]. apply H2. rewrite Hm. reflexivity.
    - destruct (merge_inv h args IH) as [H1 _]. apply H1, Hin.
  Qed.
End Obtain.
