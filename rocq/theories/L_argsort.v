(** A sorting permutation of positions exists. *)
From Verif Require Import Prelude S_sample L_base.
From Coq Require Import Permutation Sorted.

Fixpoint kinsert (key : Z -> Z) (x : Z) (l : list Z) : list Z :=
  match l with [] => [x] | y :: r => if key x <=? key y then x :: l else y :: kinsert key x r end.
Definition ksort (key : Z -> Z) (l : list Z) : list Z := fold_right (kinsert key) [] l.
Definition argsort0 (l : list Z) : list Z := ksort (fun k => nth (Z.to_nat k) l 0) (zrange (length l)).

Lemma kinsert_perm key x l : Permutation (kinsert key x l) (x :: l).
Proof.
  induction l as [|y l IH]; cbn [kinsert]; [reflexivity|]. destruct (key x <=? key y); [reflexivity|].
  etransitivity; [apply perm_skip; exact IH|apply perm_swap].
Qed.
Lemma kinsert_sorted key x l : StronglySorted Z.le (map key l) -> StronglySorted Z.le (map key (kinsert key x l)).
Proof.
  induction l as [|y l IH]; cbn [kinsert map]; intros H; [constructor; constructor|]. inversion H as [|? ? H1 H2]; subst.
  destruct (key x <=? key y) eqn:Hk; cbn [map].
  - constructor; [exact H|]. constructor; [lia|]. rewrite Forall_forall in *. intros z Hz. specialize (H2 z Hz). lia.
  - constructor; [apply IH; exact H1|]. rewrite Forall_forall in *. intros z Hz. apply in_map_iff in Hz. destruct Hz as (w & <- & Hw).
    apply (Permutation_in _ (kinsert_perm key x l)) in Hw. destruct Hw as [<-|Hw]; [lia|]. apply H2. apply in_map. exact Hw.
Qed.
Lemma argsort0_sorts : sorts argsort0.
Proof.
  intros l. unfold argsort0. generalize (fun k => nth (Z.to_nat k) l 0) as key. intros key. generalize (zrange (length l)) as m.
  induction m as [|x m [IH1 IH2]]; [split; [reflexivity|constructor]|]. cbn [ksort fold_right]. fold (ksort key m). split.
  - etransitivity; [apply kinsert_perm|]. apply perm_skip. exact IH1.
  - apply kinsert_sorted. exact IH2.
Qed.
