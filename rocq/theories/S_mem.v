(** Specification of operations on arrays of several processes.  No model
    definitions: an array is seen through its items. *)
From Verif Require Import Prelude Vec Cx.
Local Open Scope Z_scope.

(** An index of an array of the given shape. *)
Definition inside (idx sh : list Z) : Prop := Forall2 (fun i d => 0 <= i < d) idx sh.
Section Spec.
  Context {E : Type} {SE : Scalar E}.
  (** The items of the sum of arrays. *)
  Definition sums (items : list (list Z -> option E)) (sh : list Z) (r : list Z -> option E) : Prop :=
    forall idx, inside idx sh -> exists vs, Forall2 (fun f v => f idx = Some v) items vs /\ r idx = Some (esum vs).
  Definition scales (c : E) (sh : list Z) (f r : list Z -> option E) : Prop :=
    forall idx, inside idx sh -> r idx = option_map (fun x => smul x c) (f idx).
  Definition same (sh : list Z) (f r : list Z -> option E) : Prop := forall idx, inside idx sh -> r idx = f idx.
End Spec.
