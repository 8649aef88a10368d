(** Specification of the helpers: no model definitions except the vocabulary of
    calls. *)
From Coq Require Import String.
From Verif Require Import Prelude.
Open Scope Z_scope.

(** What happened to one slot: Some t for a tic at t (true) or a toc (false). *)
Inductive ev := On (t : Z) | Off (t : Z).
(** Sum of the intervals of directly consecutive On, Off. *)
Fixpoint spent (l : list ev) : Z :=
  match l with
  | On a :: ((Off b :: _) as r) => (b - a) + spent r
  | _ :: r => spent r
  | [] => 0
  end.
(** The last such interval. *)
Fixpoint last_spent (l : list ev) : option Z :=
  match l with
  | On a :: ((Off b :: _) as r) => match last_spent r with Some x => Some x | None => Some (b - a) end
  | _ :: r => last_spent r
  | [] => None
  end.
Definition running (l : list ev) : bool := match rev l with On _ :: _ => true | _ => false end.
Definition starts (l : list ev) : bool := existsb (fun e => match e with On _ => true | Off _ => false end) l.

(** Parameters that Config defines. *)
Local Open Scope string_scope.
Definition defined_params : list (string * list string) :=
  [("generic", ["Bessel_max"; "Bessel_precision"; "beta"; "mu"; "correct_spin"; "nr_time_steps"; "nr_random_samples"; "seed";
                "wfn_check_steps"; "wfn_check_thr"; "nr_Fermi_fft_steps"; "Fermi_cheb_precision"]);
   ("LDOS", ["site_indices"; "wf_weights"; "delta"; "recursion_depth"]);
   ("DC_conductivity", ["energy_limits"]);
   ("quasi_eigenstates", ["energies"]);
   ("dyn_pol", ["q_points"; "coulomb_constant"; "background_dielectric_constant"]);
   ("dckb", ["energies"; "n_kernel"; "direction"; "ne_integral"])].
Definition defined_in (attr key : string) : Prop := exists l, In (attr, l) defined_params /\ In key l.
