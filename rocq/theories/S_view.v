(** What a picture of a model shows.  A picture is a list of draw commands. *)
From Coq Require Import String.
From Verif Require Import Prelude Vec M_view.
Local Open Scope Z_scope.

Section Picture.
  Context {T : Type} {ST : Scalar T}.

  (** The eye: "ab" looks at the first two coordinates, and so on. *)
  Definition eye (view : string) (v : T * T * T) : option (T * T) :=
    let '(x, y, z) := v in
    if string_dec view "ab" then Some (x, y) else if string_dec view "ba" then Some (y, x)
    else if string_dec view "bc" then Some (y, z) else if string_dec view "cb" then Some (z, y)
    else if string_dec view "ca" then Some (z, x) else if string_dec view "ac" then Some (x, z)
    else None.

  (** Position of an orbital with fractional coordinates [tau] of cell [R]. *)
  Definition site (lat : mat T) (org tau : vec T) (R : Z * Z * Z) : vec T := vadd (vmat (vadd tau (vZ R)) lat) org.

  (** What is seen: points, arrows from one point to another, lines between
      points, and borders. *)
  Definition dots (cs : list (cmd T)) : list (T * T) :=
    flat_map (fun c => match c with Scatter l => l | _ => [] end) cs.
  Definition arrows (cs : list (cmd T)) : list ((T * T) * (T * T)) :=
    flat_map (fun c => match c with Arrow p d => [(p, (sadd (fst p) (fst d), sadd (snd p) (snd d)))] | _ => [] end) cs.
  Definition lines (cs : list (cmd T)) : list ((T * T) * (T * T)) :=
    flat_map (fun c => match c with Lines l => l | _ => [] end) cs.
  Definition borders (cs : list (cmd T)) : list ((T * T) * (T * T)) :=
    flat_map (fun c => match c with Grid l => l | _ => [] end) cs.

  (** The mirror image. *)
  Definition swap (p : T * T) : T * T := (snd p, fst p).
  Definition mirror (c : cmd T) : cmd T :=
    match c with
    | Scatter l => Scatter (map swap l)
    | Arrow p d => Arrow (swap p) (swap d)
    | Lines l => Lines (map (fun q => (swap (fst q), swap (snd q))) l)
    | Grid l => Grid (map (fun q => (swap (fst q), swap (snd q))) l)
    end.

  (** [p] and [q] are points of the segment [b] at integer multiples [m] and
      [m + 1] of its [n]-th part. *)
  Definition step_of (p v : T * T) (m : Z) : T * T := (sadd (fst p) (smul (sZ m) (fst v)), sadd (snd p) (smul (sZ m) (snd v))).
  Definition part_of (b : (T * T) * (T * T)) (p q : T * T) : Prop :=
    exists v n m, 0 <= m < n /\ snd b = step_of (fst b) v n /\ p = step_of (fst b) v m /\ q = step_of (fst b) v (m + 1).
End Picture.

(** Cells in the plane of the view. *)
Definition flat (view : string) (x y : Z) : Z * Z * Z :=
  if string_dec view "ab" then (x, y, 0) else if string_dec view "ba" then (x, y, 0)
  else if string_dec view "bc" then (0, x, y) else if string_dec view "cb" then (0, x, y) else (x, 0, y).
Definition inplane (view : string) (R : Z * Z * Z) : Z * Z :=
  let '(a, b, c) := R in
  if string_dec view "ab" then (a, b) else if string_dec view "ba" then (a, b)
  else if string_dec view "bc" then (b, c) else if string_dec view "cb" then (b, c) else (a, c).
(** The opposite direction of a hopping. *)
Definition reverse (k : (Z * Z * Z) * (Z * Z)) : (Z * Z * Z) * (Z * Z) := let '((a, b, c), (i, j)) := k in ((- a, - b, - c), (j, i)).

(** A hopping from an orbital of cell 0, and the two lattice vectors in the
    plane, as seen by [look]. *)
Definition hop_seen {T} {ST : Scalar T} (lat : mat T) (org : vec T) (look : vec T -> T * T) (tau : Z -> vec T) (k : (Z * Z * Z) * (Z * Z)) : (T * T) * (T * T) :=
  let '(R, (i, j)) := k in (look (site lat org (tau i) (0, 0, 0)), look (site lat org (tau j) R)).
Definition axes_seen {T} {ST : Scalar T} (lat : mat T) (org : vec T) (look : vec T -> T * T) (view : string) : list ((T * T) * (T * T)) :=
  map (fun q : Z * Z => (look org, look (site lat org (s0, s0, s0) (flat view (fst q) (snd q))))) [(0, 1); (1, 0)].
