(** Model of tbplas/utils.py (Timer, ProgressBar, gen_seeds) and
    tbplas/tbpm/config.py.  Clock readings are exact numbers. *)
From Coq Require Import String.
From Verif Require Import Prelude.
Open Scope Z_scope.

(** ** utils.py:20-39 Timer: the four dictionaries. *)
Record timer := { start_time : list (string * Z); track_status : list (string * bool);
                  time_usage : list (string * Z); total_usage : list (string * Z) }.
(** utils.py:35-39 __init__ and 103-112 reset *)
Definition new_timer : timer := {| start_time := []; track_status := []; time_usage := []; total_usage := [] |}.
(** utils.py:41-49; now is the value of time.time(). *)
Definition tic (t : timer) (slot : string) (now : Z) : timer :=
  {| start_time := aset String.eqb (start_time t) slot now; track_status := aset String.eqb (track_status t) slot true;
     time_usage := time_usage t; total_usage := total_usage t |}.
(** utils.py:51-69; the exception leaves the timer as it is. *)
Definition toc (t : timer) (slot : string) (now : Z) : timer * res unit :=
  let status := match aget String.eqb (track_status t) slot with Some b => b | None => false end in
  if negb status then (t, Err RuntimeError)
  else match aget String.eqb (start_time t) slot with
       | None => (t, Err KeyError)
       | Some s =>
           let usage := now - s in
           let old := match aget String.eqb (total_usage t) slot with Some x => x | None => 0 end in
           ({| start_time := start_time t; track_status := aset String.eqb (track_status t) slot false;
               time_usage := aset String.eqb (time_usage t) slot usage;
               total_usage := aset String.eqb (total_usage t) slot (old + usage) |}, Ok tt)
       end.
(** utils.py:71-85 and 87-101: the lines printed (slot and time, without
    padding) and the outcome; what is printed before an exception stays. *)
Fixpoint report_slots (t : timer) (get : string -> option Z) (slots : list string) : list (string * Z) * res unit :=
  match slots with
  | [] => ([], Ok tt)
  | s :: r =>
      match aget String.eqb (track_status t) s with
      | None => ([], Err KeyError)
      | Some true => ([], Err RuntimeError)
      | Some false =>
          match get s with
          | None => ([], Err KeyError)
          | Some u => let '(l, o) := report_slots t get r in ((s, u) :: l, o)
          end
      end
  end.
Definition report_time (t : timer) : list (string * Z) * res unit :=
  report_slots t (aget String.eqb (time_usage t)) (keys (start_time t)).
(** total_usage is a defaultdict(float) *)
Definition report_total_time (t : timer) : list (string * Z) * res unit :=
  report_slots t (fun s => match aget String.eqb (total_usage t) s with Some x => Some x | None => Some 0 end) (keys (start_time t)).

(** Calls on a timer with the clock reading, and a history of calls. *)
Inductive tcall := Tic (slot : string) (now : Z) | Toc (slot : string) (now : Z) | Reset.
Definition tstep (t : timer) (c : tcall) : timer * res unit :=
  match c with
  | Tic s now => (tic t s now, Ok tt)
  | Toc s now => toc t s now
  | Reset => (new_timer, Ok tt)
  end.
Definition trun (cs : list tcall) : timer := fold_left (fun t c => fst (tstep t c)) cs new_timer.

(** ** utils.py:115-171 ProgressBar *)
Record bar := { num_tasks : Z; scale_unit : Z; next_scale : Z; counter : Z }.
(** utils.py:149-158 *)
Definition new_bar (tasks scales : Z) : res bar :=
  if scales =? 0 then Err ZeroDivisionError
  else Ok {| num_tasks := tasks; scale_unit := tasks / scales; next_scale := tasks / scales; counter := 0 |}.
(** utils.py:160-171 count; Some c: the line "finished c of num_tasks". *)
Definition count (b : bar) : bar * res (option Z) :=
  let c := counter b + 1 in
  if next_scale b <=? c then
    ({| num_tasks := num_tasks b; scale_unit := scale_unit b; next_scale := next_scale b + scale_unit b; counter := c |},
     if num_tasks b =? 0 then Err ZeroDivisionError else Ok (Some c))
  else ({| num_tasks := num_tasks b; scale_unit := scale_unit b; next_scale := next_scale b; counter := c |}, Ok None).
(** m calls: the numbers reported. *)
Fixpoint counts (m : nat) (b : bar) : bar * list Z :=
  match m with
  | O => (b, [])
  | S m' => let '(b1, l) := counts m' b in
            let '(b2, o) := count b1 in (b2, match o with Ok (Some c) => l ++ [c] | _ => l end)
  end.

(** ** utils.py:273-293 gen_seeds *)
(** int.from_bytes(bytes, byteorder, signed=True); bytes are 0..255. *)
Definition from_bytes (big : bool) (bs : list Z) : Z :=
  let v := fold_left (fun acc b => acc * 256 + b) (if big then bs else rev bs) 0 in
  if v <? 2 ^ (8 * Z.of_nat (length bs) - 1) then v else v - 2 ^ (8 * Z.of_nat (length bs)).
(** The random byte orders and bytes are the argument. *)
Definition gen_seeds (draws : list (bool * list Z)) : list Z :=
  fold_left (fun seeds d => let r := from_bytes (fst d) (snd d) in if zmem r seeds then seeds else seeds ++ [r]) draws [].

(** ** config.py:11-165 Config: six dictionaries, and the legal names of four. *)
Section Config.
  Context {V : Type}.
  Notation dict := (list (string * V)).
  Inductive group := Generic | LDOS | DC_conductivity | Quasi_eigenstates | Dyn_pol | Dckb.
  Record config := { c_generic : dict; c_LDOS : dict; c_DC : dict; c_quasi : dict; c_dyn_pol : dict; c_dckb : dict;
                     legal : list (string * list string) }.
  Definition get_group (c : config) (g : group) : dict :=
    match g with Generic => c_generic c | LDOS => c_LDOS c | DC_conductivity => c_DC c
               | Quasi_eigenstates => c_quasi c | Dyn_pol => c_dyn_pol c | Dckb => c_dckb c end.
  (** config.attr = d *)
  Definition set_group (c : config) (g : group) (d : dict) : config :=
    {| c_generic := match g with Generic => d | _ => c_generic c end; c_LDOS := match g with LDOS => d | _ => c_LDOS c end;
       c_DC := match g with DC_conductivity => d | _ => c_DC c end; c_quasi := match g with Quasi_eigenstates => d | _ => c_quasi c end;
       c_dyn_pol := match g with Dyn_pol => d | _ => c_dyn_pol c end; c_dckb := match g with Dckb => d | _ => c_dckb c end; legal := legal c |}.
  (** config.attr[key] = v and del config.attr[key] *)
  Definition set_param (c : config) (g : group) (k : string) (v : V) : config := set_group c g (aset String.eqb (get_group c g) k v).
  Definition del_param (c : config) (g : group) (k : string) : config := set_group c g (adel String.eqb (get_group c g) k).
  (** config.py:134-145 *)
  Definition set_legal_params (c : config) : config :=
    {| c_generic := c_generic c; c_LDOS := c_LDOS c; c_DC := c_DC c; c_quasi := c_quasi c; c_dyn_pol := c_dyn_pol c; c_dckb := c_dckb c;
       legal := [("generic"%string, keys (c_generic c)); ("LDOS"%string, keys (c_LDOS c));
                 ("dyn_pol"%string, keys (c_dyn_pol c)); ("dckb"%string, keys (c_dckb c))] |}.
  (** config.py:86-124 __init__; the default values are given by name. *)
  Definition new_config (default : group -> string -> V) : config :=
    let mk g l := map (fun k => (k, default g k)) l in
    set_legal_params
    {| c_generic := mk Generic ["Bessel_max"; "Bessel_precision"; "beta"; "mu"; "correct_spin"; "nr_time_steps"; "nr_random_samples"; "seed";
                                "wfn_check_steps"; "wfn_check_thr"; "nr_Fermi_fft_steps"; "Fermi_cheb_precision"]%string;
       c_LDOS := mk LDOS ["site_indices"; "wf_weights"; "delta"; "recursion_depth"]%string;
       c_DC := mk DC_conductivity ["energy_limits"]%string;
       c_quasi := mk Quasi_eigenstates ["energies"]%string;
       c_dyn_pol := mk Dyn_pol ["q_points"; "coulomb_constant"; "background_dielectric_constant"]%string;
       c_dckb := mk Dckb ["energies"; "n_kernel"; "direction"; "ne_integral"]%string;
       legal := [] |}.
  (** config.py:154-160 _check *)
  Definition check_one (c : config) (attr : dict) (name : string) : res unit :=
    match aget String.eqb (legal c) name with
    | None => Err KeyError
    | Some ref => match filter (fun k => negb (existsb (String.eqb k) ref)) (keys attr) with
                  | [] => Ok tt | _ :: _ => Err ValueError end
    end.
  (** config.py:147-165 check_params *)
  Definition check_params (c : config) : res unit :=
    bind (check_one c (c_generic c) "generic") (fun _ =>
    bind (check_one c (c_LDOS c) "LDOS") (fun _ =>
    bind (check_one c (c_dyn_pol c) "dyn_pol") (fun _ =>
    check_one c (c_dckb c) "dckb"))).
  (** config.py:168-185 read_config; stored is the unpickled object. *)
  Definition read_config (default : group -> string -> V) (stored : config) : config :=
    let c := new_config default in
    let c := set_group c Generic (c_generic stored) in
    let c := set_group c LDOS (c_LDOS stored) in
    let c := set_group c Dyn_pol (c_dyn_pol stored) in
    let c := set_group c DC_conductivity (c_DC stored) in
    let c := set_group c Dckb (c_dckb stored) in
    let c := set_group c Quasi_eigenstates (c_quasi stored) in
    set_legal_params c.
End Config.
