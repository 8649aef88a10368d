(** Model of cells whose hoppings are Slater-Koster integrals over neighbours:
    the loop of tbplas/materials/graphene.py:97-122 and
    tbplas/materials/xs2.py:471-487, and make_graphene_sp.
    Decimal literals and quotients are exact. *)
From Coq Require Import String Reals.
From Verif Require Import Prelude Vec Cx L_gersh M_hop M_pc M_super M_lat M_graphene M_neigh S_sk M_sk.
Open Scope Z_scope.

Notation rcell := (pc Cplx R Cplx string).
Section Build.
  (** near: the KDTree of find_neighbors; name: from the label of an orbital to
      its kind (xs2.py:480-481; the label itself in graphene.py:106-107); par:
      the parameters at a distance (graphene.py:112-117). *)
  Context (near : list (vec R) -> list (vec R) -> R -> list ((Z * Z) * R)) (name : string -> res string) (par : R -> res sk_par).
  (** cell.get_orbital(i).label *)
  Definition orb_label (s : rcell) (i : Z) : res string :=
    match snd (get_orbital s i) with Ok (OOrb o) => Ok (label o) | Ok _ => Err TypeError | Err x => Err x end.
  (** graphene.py:103-122, xs2.py:477-487: the body of the loop *)
  Definition sk_term (s : rcell) (t : term R R) : res rcell :=
    let '(i, j) := t_pair t in
    bind (orb_label s i) (fun label_i => bind (orb_label s j) (fun label_j =>
    bind (name label_i) (fun lm_i => bind (name label_j) (fun lm_j =>
    bind (par (t_dist t)) (fun V =>
    bind (sk_eval (t_rij t) lm_i lm_j V) (fun h =>
    let '(a, b, c) := t_rn t in
    match add_hopping Cconj s [a; b; c] i j h with (s', Ok _) => Ok s' | (_, Err x) => Err x end)))))).
  Fixpoint sk_terms (s : rcell) (l : list (term R R)) : res rcell :=
    match l with [] => Ok s | t :: r => bind (sk_term s t) (fun s' => sk_terms s' r) end.
  (** primitive.py:1057-1066 orb_pos_nm, with the default origin *)
  Definition pos_nm (lat : mat R) (s : rcell) : list (vec R) := map (fun o => vadd (vmat (position o) lat) (0, 0, 0)%R) (orbs s).
  (** graphene.py:97-122, xs2.py:471-487 *)
  Definition sk_build (lat : mat R) (s : rcell) (a_max b_max c_max : Z) (cut : R) : res rcell :=
    bind (find_neighbors Rleb 0%R near {| prim := true; c_pos := pos_nm lat s; c_lat := lat |} None a_max b_max c_max cut) (fun l =>
    sk_terms s l).
End Build.

(** A decimal: m / 10^e. *)
Definition dec (m : Z) (e : nat) : R := (IZR m / 10 ^ e)%R.
(** Parameters with the defaults of SK.eval (advanced.py:933-942). *)
Definition sp_params (sss sps pps ppp : R) : sk_par :=
  {| v_sss := Cre sss; v_sps := Cre sps; v_sds := Cre 0; v_pps := Cre pps; v_ppp := Cre ppp;
     v_pds := Cre 0; v_pdp := Cre 0; v_dds := Cre 0; v_ddp := Cre 0; v_ddd := Cre 0 |}.
(** graphene.py:98-117 *)
Definition sp_d1 : R := dec 14202816622064793 17.
Definition sp_d2 : R := dec 24599999999999997 17.
Definition sp_close (d e : R) : bool := negb (Rleb (dec 1 5) (Rabs (d - e))).
Definition sp_par (distance : R) : res sk_par :=
  if sp_close distance sp_d1 then Ok (sp_params (dec (-5729) 3) (dec 5618 3) (dec 6050 3) (dec (-3070) 3))
  else if sp_close distance sp_d2 then Ok (sp_params (dec 102 3) (dec (-171) 3) (dec (-377) 3) (dec 70 3))
  else Err ValueError.
(** graphene.py:86-95 *)
Definition sp_orbs : list (op Cplx R Cplx string) :=
  flat_map (fun p : R => map (fun q : string * R => OpAddOrb [p; p; 0%R] (Cre (snd q)) (fst q))
    [("s", dec (-8370) 3); ("px", 0%R); ("py", 0%R); ("pz", 0%R)]%string) [0%R; (1 / 3)%R].
(** graphene.py:75-123 make_graphene_sp *)
Definition graphene_sp near (c : R) : res (material Cplx R) :=
  bind (gen_lattice_vectors lat_a lat_a c 90 90 60) (fun v =>
  bind (script Cconj 0%R pc_empty sp_orbs) (fun s =>
  bind (sk_build near Ok sp_par v s 5 5 0 (dec 25 2)) (fun s' => Ok {| m_lat := v; m_pc := s' |}))).
