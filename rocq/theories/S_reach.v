(** Supercells that a program can obtain: a primitive cell with any history of
    calls, the constructor with any arguments, then any calls of the mutators
    of the supercell. *)
From Verif Require Import Prelude Vec M_hop M_pc M_index M_super S_pc.

Section Reach.
  Context {E T X W L : Type} {ST : Scalar T} (conj : E -> E) (zero : X) (frac_of : X * X * X -> vec T).

  (** A position modifier is a function that moves atoms in place. *)
  Definition in_place (f : option (list (vec T) -> list (vec T))) : Prop :=
    forall g l, f = Some g -> length (g l) = length l.

  Definition builds (os : list (op E X W L)) (lat : mat T) (org : vec T) (dim : list Z) (pbc : list bool)
             (vacs : option (list (list Z))) (pmod : option (list (vec T) -> list (vec T))) (s : sc E T) : Prop :=
    hist_ok conj zero pc_empty os /\ in_place pmod /\
    exists p', make_sc frac_of (fst (run conj zero pc_empty os)) lat org dim pbc vacs pmod = (p', Ok s).

  Definition edits_vacancies (o : scop E) : Prop := match o with SAddVac _ | SSetVac _ => True | _ => False end.
  Definition edits_hoppings (o : scop E) : Prop := match o with SAddHop _ _ _ _ => True | _ => False end.

  (** The order users are told to follow: vacancies first, then hoppings. *)
  Definition ordered_edits (sos : list (scop E)) : Prop :=
    exists vs hs, sos = vs ++ hs /\ Forall (fun o => ~ edits_hoppings o) vs /\ Forall (fun o => ~ edits_vacancies o) hs.
End Reach.
