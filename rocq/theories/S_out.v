(** Specification of the files of TBPM calculations.  No model definitions. *)
From Coq Require Import Ascii String.
From Verif Require Import Prelude.
Import ListNotations.
Local Open Scope string_scope.
Local Open Scope list_scope.

(** The calculations of a solver; quasi-eigenstates and wave functions are saved
    on request. *)
Inductive call := Dos | Ldos | Ac | DynPol | Dc | Hall | Qe (save : bool) | Haydock | Psi (save : bool).
(** Where the arrays that a calculation returns are saved. *)
Definition saved_as (c : call) : list (option string) :=
  match c with
  | Dos => [Some "corr_DOS"] | Ldos => [Some "corr_LDOS"] | Ac => [Some "corr_AC"] | DynPol => [Some "corr_dyn_pol"]
  | Dc => [Some "corr_DOS"; Some "corr_DC"] | Hall => [Some "hall_mu"]
  | Qe b => [if b then Some "qe" else None] | Haydock => [None; Some "ldos_haydock"] | Psi b => [if b then Some "psi_t" else None]
  end.
(** The text files of the Fortran subroutines. *)
Definition texts (c : call) : list string :=
  match c with Dos => ["corr_DOS"] | Ldos => ["corr_LDOS"] | Ac => ["corr_AC"] | DynPol => ["corr_dyn_pol"] | Dc => ["corr_DOS"; "corr_DC"] | _ => [] end.
(** Calculations that distribute random samples. *)
Definition sampled (c : call) : bool := match c with Haydock | Psi _ => false | _ => true end.
Definition all_keys : list string := ["corr_DOS"; "corr_LDOS"; "corr_AC"; "corr_dyn_pol"; "corr_DC"; "hall_mu"; "qe"; "ldos_haydock"; "psi_t"].

(** The array that was put under a name last, if any. *)
Fixpoint last_under {A} (key : string) (log : list (string * A)) : option A :=
  match log with
  | [] => None
  | (k, a) :: r => match last_under key r with Some b => Some b | None => if String.eqb k key then Some a else None end
  end.
(** What a finished calculation puts under names. *)
Fixpoint puts {A} (ks : list (option string)) (l : list A) : list (string * A) :=
  match ks, l with Some k :: ks, a :: l => (k, a) :: puts ks l | None :: ks, _ :: l => puts ks l | _, _ => [] end.
(** Text without a character. *)
Fixpoint without (c : ascii) (s : string) : Prop := match s with EmptyString => True | String d r => d <> c /\ without c r end.
