(** Model of the pictures of fields, states, bands and phases: tbplas/visual.py
    (Visualizer.plot_bands 106-163, plot_phases 189-246, _plot_model 248-275,
    plot_scalar 277-360, plot_vector 362-425, plot_wfc 427-452) and Sample.plot
    (builder/sample.py:463-522).  A picture is the list of the calls made to the
    matplotlib axes by the process that draws, without colours of single items,
    widths, styles and labels.  Reals are exact. *)
From Coq Require Import Reals String.
From Verif Require Import Prelude Vec Cx M_hop M_pc M_sync M_bloch M_inter M_super M_sample M_par M_view.
Local Open Scope Z_scope.

Section Field.
  Context {T : Type} {ST : Scalar T} (inv : T -> T) (leb : T -> T -> bool).

  (** axes.add_collection of lines; axes.scatter, with values for the colour
      map; axes.imshow with origin="lower", rows of pixels and extent; axes.quiver
      (places, directions, values); axes.plot; axes.axvline; set_xlim; set_xticks *)
  Inductive draw :=
    | Segs (l : list (pt T * pt T))
    | Dots (l : list (pt T)) (c : option (list T))
    | Image (rows : list (list (option T))) (x0 x1 y0 y1 : T)
    | Quiver (l : list (pt T * pt T)) (c : option (list T))
    | Curve (l : list (pt T))
    | VLine (x : T)
    | XLim (a b : T)
    | XTicks (l : list T) (labels : list string).

  (** ** Models *)
  (** 269-272: the loop over the hopping terms *)
  Definition model_lines (pos : list (vec T)) (terms : list (Z * vec T)) : res (list (pt T * pt T)) :=
    mapM (fun t : Z * vec T => bind (aread pos (fst t)) (fun p => Ok (proj (0, 1, 2) p, proj (0, 1, 2) (vadd p (snd t))))) terms.
  (** 260-263; hop_ind of a cell without hopping terms has one axis, and
      hop_ind[:, 3] raises IndexError *)
  Definition cell_lines {E W L} (lat : mat T) (org : vec T) (s : cached E T W L) : res (list (pt T * pt T)) :=
    match c_hop s with
    | [] => Err IndexError
    | _ => bind (cell_terms lat s) (fun ts => model_lines (cell_pos lat org s) (map (fun t : Z * Z * E * vec T => let '(i, _, _, d) := t in (i, d)) ts))
    end.
  (** 264-268; float columns hold no indices *)
  Definition sample_lines {E} (pos : list (vec T)) (q : list (row E T) * dtype) : res (list (pt T * pt T)) :=
    match snd q, fst q with
    | Float64, _ :: _ => Err IndexError
    | _, rows => model_lines pos (map (fun r => (r_i r, r_dr r)) rows)
    end.
  Definition sample_model {E} {SE : Scalar E} (conj : E -> E) (h : heap E T) (s : sample E T) : sample E T * res (list (vec T) * list (pt T * pt T)) :=
    let '(s', r) := seq2 (init_orb_pos h false) (init_hops conj h false) s in
    (s', bind r (fun _ => bind (got (m_pos s')) (fun pos => bind (got (m_rows s')) (fun q => bind (sample_lines pos q) (fun l => Ok (pos, l)))))).

  (** ** Scalar fields *)
  (** numpy.min, numpy.max *)
  Definition tmin (a b : T) : T := if leb b a then b else a.
  Definition tmax (a b : T) : T := if leb a b then b else a.
  Definition npfold (f : T -> T -> T) (l : list T) : res T := match l with [] => Err ValueError | x :: r => Ok (fold_left f r x) end.
  (** numpy.meshgrid, ravel and numpy.c_: x runs fastest *)
  Definition mesh (xs ys : list T) : list (pt T) := flat_map (fun y => map (fun x => (x, y)) xs) ys.
  (** numpy.reshape of a flat array to (a, b) *)
  Fixpoint rows2d {A} (a b : nat) (l : list A) : list (list A) :=
    match a with O => [] | S a => firstn b l :: rows2d a b (skipn b l) end.
  Definition reshape {A} (a b : Z) (l : list A) : res (list (list A)) :=
    if (a <? 0) || (b <? 0) || negb (a * b =? Z.of_nat (length l)) then Err ValueError else Ok (rows2d (Z.to_nat a) (Z.to_nat b) l).
  (** scipy's griddata(method="cubic"): the interpolating function of the data;
      None stands for nan, outside of the convex hull *)
  Context (griddata : list (pt T) -> list T -> pt T -> option T).
  (** 319-346; [lines] are those of _plot_model, if a model is given *)
  Definition plot_scalar (lines : option (list (pt T * pt T))) (x y z : list T) (scatter cmap : bool) (nx ny : Z) : res (list draw) :=
    let model := match lines with Some l => [Segs l] | None => [] end in
    if negb ((length x =? length y)%nat) then Err ValueError
    else if scatter then
      if cmap then if (length x =? length z)%nat then Ok (model ++ [Dots (combine x y) (Some z)]) else Err ValueError
      else Ok (model ++ [Dots (combine x y) None])
    else
      bind (npfold tmin x) (fun x_min => bind (npfold tmax x) (fun x_max =>
      bind (npfold tmin y) (fun y_min => bind (npfold tmax y) (fun y_max =>
      bind (linspace inv x_min x_max nx) (fun x_fi => bind (linspace inv y_min y_max ny) (fun y_fi =>
      if (length x =? length z)%nat then
        bind (reshape nx ny (map (griddata (combine x y) z) (mesh x_fi y_fi))) (fun z_fi =>
        Ok (model ++ [Image z_fi x_min x_max y_min y_max]))
      else Err ValueError)))))).
  (** 440-452 plot_wfc over the positions of the orbitals *)
  Definition plot_wfc (pos : list (vec T)) (lines : option (list (pt T * pt T))) (wfc : list T) (scatter cmap : bool) (nx ny : Z) : res (list draw) :=
    plot_scalar lines (map (comp 0) pos) (map (comp 1) pos) wfc scatter cmap nx ny.

  (** ** Vector fields: 397-405; [sqr] is the square root *)
  Definition plot_vector (sqr : T -> T) (lines : option (list (pt T * pt T))) (x y u v : list T) (cmap : bool) : res (list draw) :=
    let model := match lines with Some l => [Segs l] | None => [] end in
    if (length x =? length y)%nat && (length u =? length x)%nat && (length v =? length x)%nat then
      let c := map (fun q : T * T => sqr (sadd (smul (fst q) (fst q)) (smul (snd q) (snd q)))) (combine u v) in
      Ok (model ++ [Quiver (combine (combine x y) (combine u v)) (if cmap then Some c else None)])
    else Err ValueError.

  (** ** Bands and phases *)
  Definition column (m : list (list T)) (b : Z) : res (list T) := mapM (fun r => rd r b) m.
  (** 141-157; [bands] holds [nb] columns *)
  Definition plot_bands (k_len : list T) (bands : list (list T)) (nb : Z) (k_idx : list Z) (k_label : list string) : res (list draw) :=
    bind (mapM (fun b => bind (column bands b) (fun c => if (length k_len =? length c)%nat then Ok (Curve (combine k_len c)) else Err ValueError)) (zrange (Z.to_nat nb))) (fun curves =>
    bind (mapM (fun i => match py_nth k_len i with Some x => Ok x | None => Err IndexError end) k_idx) (fun ks =>
    bind (npfold tmax k_len) (fun k_max =>
    if (length ks =? length k_label)%nat then Ok (curves ++ map VLine ks ++ [XLim s0 k_max; XTicks ks k_label]) else Err ValueError))).
  (** 225-235: pairs of coordinates of the axes, angle and radius if polar *)
  Definition plot_phases (kb : list T) (phases : list (list T)) (nb : Z) (scatter polar : bool) : res (list draw) :=
    mapM (fun b => bind (column phases b) (fun c => if (length kb =? length c)%nat then
      let l := if polar then combine c kb else combine kb c in Ok (if scatter then Dots l None else Curve l) else Err ValueError)) (zrange (Z.to_nat nb)).

  (** ** Samples: sample.py:491-510 *)
  Context {E : Type} {SE : Scalar E} (conj : E -> E) (big : E -> bool).
  Definition plot_sample (h : heap E T) (s : sample E T) (view : string) (o : options) : res (list (cmd T)) :=
    bind (mapM (fun i => plot_super big conj (fst (h i)) view o) (m_sc s)) (fun a =>
    bind (mapM (fun q : Z * Z * inter E => let '(b, k, x) := q in plot_inter big (fst (h b)) (fst (h k)) x view (o_conj o) (o_arrows o)) (m_hop s)) (fun c =>
    Ok (concat a ++ concat c))).
End Field.
Arguments draw : clear implicits.
