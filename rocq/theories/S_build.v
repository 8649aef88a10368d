(** Specifications of extended and merged cells. *)
From Verif Require Import Prelude Vec M_hop M_pc M_build S_pc S_index S_super.

(** Cell index, in the original crystal, between the bra at copy [s] and the ket
    at copy [s'] of repetition [n] of an extended cell. *)
Definition unfold_rn (dim n : Z * Z * Z) (s s' : site) : Z * Z * Z :=
  let '(da, db, dc) := dim in let '(na, nb, nc) := n in
  let '(a, b, c, _) := s in let '(a', b', c', _) := s' in
  (a' + da * na - a, b' + db * nb - b, c' + dc * nc - c).

Definition orb_at (s : site) : Z := let '(_, _, _, o) := s in o.
Definition cell_at (s : site) : Z * Z * Z := let '(a, b, c, _) := s in (a, b, c).

(** The last of a list of written amplitudes, read in either orientation. *)
Fixpoint last_write {E} (conj : E -> E) (ws : list (Z * Z * Z * Z * Z * E)) (r : Z * Z * Z) (i j : Z)
         (now : option E) : option E :=
  match ws with
  | [] => now
  | (r0, a, b, e) :: rest =>
    last_write conj rest r i j
      (if same_key r0 r a b i j then Some e
       else if same_key r0 (opp3 r) a b j i then Some (conj e) else now)
  end.

(** Orbital i of component p in the merged cell. *)
Definition block_start (sizes : list Z) (p : nat) : Z := fold_right Z.add 0 (firstn p sizes).

(** Merged cells. *)
Section Merge.
  Context {E T W L : Type} {ST : Scalar T}.
  (** Same orbital, in two lattices. *)
  Definition orb_eq (lat : mat T) (org : vec T) (lat' : mat T) (org' : vec T) (o o' : orbital T W L) : Prop :=
    energy o' = energy o /\ label o' = label o /\
    vadd (vmat (position o') lat') org' = vadd (vmat (position o) lat) org.

  (** Terms of an inter-hopping container put at the blocks of bra and ket. *)
  Definition placed (ob ok : Z) (l : list (Z * Z * Z * (Z * Z) * E)) : list (Z * Z * Z * Z * Z * E) :=
    map (fun t => let '(r, (i, j), e) := t in (r, i + ob, j + ok, e)) l.
End Merge.

(** Position of the first occurrence. *)
Definition first_at (k : nat) (cs : list nat) (p : nat) : Prop :=
  nth_error cs p = Some k /\ forall q, (q < p)%nat -> nth_error cs q <> Some k.

(** The arguments of a merge, in order. *)
Definition cells_of {E} (args : list (@marg E)) : list nat :=
  flat_map (fun a => match a with ACell k => [k] | _ => [] end) args.
Definition inters_of {E} (args : list (@marg E)) : list (nat * nat * @hops E) :=
  flat_map (fun a => match a with AInter b k h => [(b, k, h)] | _ => [] end) args.

(** The writes asked for by the inter-hopping containers [hs]: bra and ket
    orbitals are counted from the blocks of the (first listed) bra and ket cells. *)
Definition inter_ws {E} (szs : list Z) (cs : list nat) (hs : list (nat * nat * @hops E))
           (wss : list (list (Z * Z * Z * Z * Z * E))) : Prop :=
  Forall2 (fun (q : nat * nat * @hops E) ws => exists b k,
     first_at (fst (fst q)) cs b /\ first_at (snd (fst q)) cs k /\
     ws = placed (block_start szs b) (block_start szs k) (flatten (snd q))) hs wss.

(** The containers join listed cells, with orbital numbers of these cells. *)
Definition inter_fits {E T W L} (h : list (gcell E T W L)) (cs : list nat) (hs : list (nat * nat * @hops E)) : Prop :=
  forall b k d, In (b, k, d) hs -> In b cs /\ In k cs /\
  forall r i j e, In (r, (i, j), e) (flatten d) ->
    exists cb ck, nth_error h b = Some cb /\ nth_error h k = Some ck /\
      0 <= i < num_orb (g_pc cb) /\ 0 <= j < num_orb (g_pc ck) /\ ~ (r = (0, 0, 0) /\ b = k /\ i = j).

(** Cells a program can obtain by editing, extending and merging. *)
Section Obtain.
  Context {E T W L : Type} {ST : Scalar T} (conj : E -> E) (sdivZ : T -> Z -> T)
          (c2f : mat T -> vec T -> vec T -> vec T)
          (lat_mismatch : mat T -> mat T -> bool) (ext_ge : T -> T -> bool).
  Inductive obtainable : gcell E T W L -> Prop :=
  | ob_new lat org ext : obtainable {| g_pc := pc_empty; g_lat := lat; g_org := org; g_ext := ext |}
  | ob_edit c os : obtainable c -> hist_ok conj s0 (g_pc c) os ->
      obtainable {| g_pc := fst (run conj s0 (g_pc c) os); g_lat := g_lat c; g_org := g_org c; g_ext := g_ext c |}
  | ob_extend c dim c' : obtainable c -> extend conj sdivZ c dim = Ok c' -> obtainable c'
  | ob_merge h args h' m : (forall c, In c h -> obtainable c) ->
      merge conj c2f lat_mismatch ext_ge h args = (h', Ok m) -> obtainable m
  | ob_merged h args c : (forall c, In c h -> obtainable c) ->
      In c (fst (merge conj c2f lat_mismatch ext_ge h args)) -> obtainable c.
End Obtain.
