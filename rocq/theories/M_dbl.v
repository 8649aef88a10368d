(** Model of the spin doubling and the spin-orbit terms of
    tbplas/materials/xs2.py:489-521, and make_mos2_soc (420-521).
    Decimal literals and quotients are exact. *)
From Coq Require Import String Ascii Reals.
From Verif Require Import Prelude Vec Cx L_gersh M_hop M_pc M_super M_build M_lat M_graphene M_neigh S_sk M_sk M_soc M_skcell.
Open Scope Z_scope.

(** str.split(":") *)
Fixpoint split_colon (s : string) : list string :=
  match s with
  | EmptyString => [EmptyString]
  | String ch r => let l := split_colon r in
                   if Ascii.eqb ch ":"%char then EmptyString :: l
                   else match l with h :: t => String ch h :: t | [] => [String ch EmptyString] end
  end.
(** label.split(":")[1] *)
Definition second_field (l : string) : res string := match nth_error (split_colon l) 1 with Some x => Ok x | None => Err IndexError end.

(** xs2.py:494-499: one iteration *)
Definition spin_label (sp : string) (s : rcell) (i : Z) : res rcell :=
  bind (orb_label s i) (fun l =>
  match set_orbital 0%R s i None None (Some (l ++ ":" ++ sp)%string) with (s', Ok _) => Ok s' | (_, Err x) => Err x end).
Fixpoint each {A} (f : rcell -> A -> res rcell) (s : rcell) (l : list A) : res rcell :=
  match l with [] => Ok s | a :: r => bind (f s a) (fun s' => each f s' r) end.
(** range(a, b) *)
Definition range_from (a b : Z) : list Z := map (fun k => a + k) (zrange (Z.to_nat (b - a))).
(** xs2.py:492-499 *)
Definition spin_labels (s : rcell) : res rcell :=
  let half := num_orb s / 2 in let total := num_orb s in
  bind (each (spin_label "up") s (range_from 0 half)) (fun s' => each (spin_label "down") s' (range_from half total)).
(** atom, lm, spin = label.split(":") *)
Definition three_fields (l : string) : res (string * string * string) :=
  match split_colon l with [a; b; c] => Ok (a, b, c) | _ => Err ValueError end.
(** xs2.py:506-520: the body of the inner loop; soc_lambda is a dictionary.  The
    result of get_hopping is added to a variable that is not used. *)
Definition soc_pair (soc_lambda : string -> res R) (i : Z) (fi : string * string * string) (s : rcell) (j : Z) : res rcell :=
  let '(atom_i, lm_i, spin_i) := fi in
  bind (orb_label s j) (fun lj => bind (three_fields lj) (fun fj =>
  let '(atom_j, lm_j, spin_j) := fj in
  if String.eqb atom_j atom_i then
    bind (soc_eval lm_i spin_i lm_j spin_j) (fun v => bind (soc_lambda atom_j) (fun lam =>
    let soc_intensity := Cmul v (Cre lam) in
    if Rleb (dec 1 15) (Cmod soc_intensity) then
      match snd (get_hopping Cconj s [0; 0; 0] i j) with
      | Ok _ | Err PCHopNotFoundError =>
        match add_hopping Cconj s [0; 0; 0] i j soc_intensity with (s', Ok _) => Ok s' | (_, Err x) => Err x end
      | Err x => Err x
      end
    else Ok s))
  else Ok s)).
(** xs2.py:503-505 *)
Definition soc_row (soc_lambda : string -> res R) (s : rcell) (i : Z) : res rcell :=
  bind (orb_label s i) (fun li => bind (three_fields li) (fun fi => each (soc_pair soc_lambda i fi) s (range_from (i + 1) (num_orb s)))).
Definition soc_terms (soc_lambda : string -> res R) (s : rcell) : res rcell := each (soc_row soc_lambda) s (zrange (Z.to_nat (num_orb s))).

Section Spin.
  (** near: the KDTree; c2f, lat_mismatch, ext_ge: see M_build. *)
  Context (near : list (vec R) -> list (vec R) -> R -> list ((Z * Z) * R)).
  Context (c2f : mat R -> vec R -> vec R -> vec R) (lat_mismatch : mat R -> mat R -> bool) (ext_ge : R -> R -> bool).
  (** xs2.py:489-521 *)
  Definition add_spin (soc_lambda : string -> res R) (lat : mat R) (s : rcell) : res rcell :=
    let cell := {| g_pc := s; g_lat := lat; g_org := (0, 0, 0)%R; g_ext := 1%R |} in
    bind (snd (merge Cconj c2f lat_mismatch ext_ge [cell] [ACell 0; ACell 0])) (fun m =>
    bind (spin_labels (g_pc m)) (fun s' => soc_terms soc_lambda s')).

  (** xs2.py:430-434, with unit=ANG (constants.py:4) *)
  Definition mos2_lat : mat R :=
    let v x y z := vscale (dec 1 1) (x, y, z) in
    (v (dec 31600000 7) 0%R 0%R, v (dec (-1579999) 6) (dec 2736640276 9) 0%R, v 0%R 0%R (dec 31720000000 10)).
  (** xs2.py:437-446, 454-456, 467-470 *)
  Definition mos2_energy (lm : string) : res Cplx :=
    if existsb (String.eqb lm) ["dz2"]%string then Ok (Cre (dec (-1512) 3))
    else if existsb (String.eqb lm) ["dzx"; "dyz"]%string then Ok (Cre (dec 419 3))
    else if existsb (String.eqb lm) ["dx2-y2"; "dxy"]%string then Ok (Cre (dec (-3025) 3))
    else if existsb (String.eqb lm) ["px"; "py"]%string then Ok (Cre (dec (-1276) 3))
    else if existsb (String.eqb lm) ["pz"]%string then Ok (Cre (dec (-8236) 3))
    else Err KeyError.
  Definition mos2_sites : list (list R * string) :=
    map (fun l => ([dec 666670000 9; dec 333330000 9; dec 5 1], l)) ["Mo:dz2"; "Mo:dzx"; "Mo:dyz"; "Mo:dx2-y2"; "Mo:dxy"]%string ++
    map (fun l => ([0%R; 0%R; 0%R], l)) ["S1:px"; "S1:py"; "S1:pz"]%string ++
    map (fun l => ([0%R; 0%R; 1%R], l)) ["S2:px"; "S2:py"; "S2:pz"]%string.
  Definition mos2_orb (s : rcell) (q : list R * string) : res rcell :=
    bind (second_field (snd q)) (fun lm => bind (mos2_energy lm) (fun e =>
    match add_orbital 0%R s (fst q) e (snd q) with (s', Ok _) => Ok s' | (_, Err x) => Err x end)).
  (** xs2.py:459-461 and the defaults of SK.eval *)
  Definition mos2_par : sk_par :=
    {| v_sss := Cre 0; v_sps := Cre 0; v_sds := Cre 0; v_pps := Cre (dec 696 3); v_ppp := Cre (dec 278 3);
       v_pds := Cre (dec (-2619) 3); v_pdp := Cre (dec (-1396) 3); v_dds := Cre (dec (-933) 3); v_ddp := Cre (dec (-478) 3); v_ddd := Cre (dec (-442) 3) |}.
  (** xs2.py:464 *)
  Definition mos2_lambda (atom : string) : res R :=
    if String.eqb atom "Mo" then Ok (dec 75 3) else if String.eqb atom "S1" then Ok (dec 52 3) else if String.eqb atom "S2" then Ok (dec 52 3) else Err KeyError.
  Definition mos2_soc : res (material Cplx R) :=
    bind (each mos2_orb pc_empty mos2_sites) (fun s =>
    bind (sk_build near second_field (fun _ => Ok mos2_par) mos2_lat s 2 2 0 (dec 32 2)) (fun s' =>
    bind (add_spin mos2_lambda mos2_lat s') (fun s'' => Ok {| m_lat := mos2_lat; m_pc := s'' |}))).
End Spin.
