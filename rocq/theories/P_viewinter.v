(** Property C86: pictures of hoppings between supercells show every stored
    term, also when several terms join the same two orbitals. *)
From Coq Require Import String.
From Verif Require Import Prelude Vec Cx M_hop M_pc M_sync M_bloch M_index M_inter M_super M_view S_pc S_super S_reach S_inter S_view L_base L_super L_inter L_view P_pc P_super.
Local Open Scope Z_scope.

Section Inter.
  Context {E T : Type} {ST : Scalar T} (TL : ScalarLaws T) (big : E -> bool).
  Add Ring Tri : (s_ring T TL).
  Lemma to_ket (a b c : vec T) : vadd a (vadd (vsub b a) c) = vadd b c.
  Proof. destruct a as [[? ?] ?], b as [[? ?] ?], c as [[? ?] ?]. cbn [vadd vsub]. repeat (f_equal; try ring). Qed.
  Lemma to_bra (a b c : vec T) : vsub b (vadd (vsub b a) c) = vsub a c.
  Proof. destruct a as [[? ?] ?], b as [[? ?] ?], c as [[? ?] ?]. cbn [vadd vsub]. repeat (f_equal; try ring). Qed.

  Definition shown (f : istore E) (key : Z * Z * Z * Z * Z) : bool :=
    let '(r, i, j) := key in match f r i j with Some e => big e | None => false end.
  (** what is drawn for a term: from the bra to the ket in cell [r] and, with
      conjugates, from the ket to the bra in cell [-r] *)
  Definition seg (pb pk : list (vec T)) (lat : mat T) (look : vec T -> T * T) (cj : bool) (key : Z * Z * Z * Z * Z) (s : list ((T * T) * (T * T))) : Prop :=
    let '(r, i, j) := key in exists pi pj, nth_error pb (Z.to_nat i) = Some pi /\ nth_error pk (Z.to_nat j) = Some pj /\
      s = (look pi, look (vadd pj (vmat (vZ r) lat))) :: if cj then [(look pj, look (vsub pi (vmat (vZ r) lat)))] else [].

  Lemma ends_seen f (pb pk : list (vec T)) lat w look (cj : bool) (Hp : forall v, proj w v = look v) keys (rows : list (row E T)) :
    Forall2 (fun k w => let '(r, i, j) := k in
        r_i w = i /\ r_j w = j /\ f r i j = Some (r_v w) /\ 0 <= i /\ 0 <= j /\
        exists qb qk, nth_error pb (Z.to_nat i) = Some qb /\ nth_error pk (Z.to_nat j) = Some qk /\
          r_dr w = vadd (vsub qk qb) (vmat (vZ r) lat)) keys rows ->
    exists (ends : list (list (vec T * vec T))) (segs : list (list ((T * T) * (T * T)))), mapM (hop_ends big pb (if cj then pk else []) cj) (map row_term rows) = Ok ends /\
      Forall2 (seg pb pk lat look cj) (filter (shown f) keys) segs /\
      map (fun q : vec T * vec T => (proj w (fst q), proj w (snd q))) (concat ends) = concat segs.
  Proof.
    induction 1 as [|[[r i] j] rw keys rows (<- & <- & Ef & Hi & Hj & qb & qk & Eb & Ek & Ed) _ (ends & segs & E1 & E2 & E3)].
    - exists [], []. repeat split. constructor.
    - cbn [map mapM filter shown]. rewrite Ef. unfold row_term at 1. unfold hop_ends at 1. destruct (big (r_v rw)).
      + unfold aread. destruct (Z.ltb_spec (r_i rw) 0); [lia|]. destruct (Z.ltb_spec (r_j rw) 0); [lia|]. rewrite Eb. cbn [bind].
        destruct cj; [rewrite Ek; cbn [bind]|]; rewrite E1; cbn [bind]; (eexists; eexists (_ :: segs); split; [reflexivity|]);
          (split; [constructor; [exists qb, qk; split; [exact Eb|]; split; [exact Ek|reflexivity]|exact E2]|]);
          cbn [concat]; rewrite map_app, E3; cbn [map fst snd app]; rewrite !Hp, Ed, ?to_ket, ?to_bra; reflexivity.
      + cbn [bind]. rewrite E1. cbn [bind]. exists ([] :: ends), segs. split; [reflexivity|]. split; [exact E2|exact E3].
  Qed.
End Inter.

Theorem C86_inter :
  forall (E T X W L : Type) (ST : Scalar T) (conj : E -> E) (zero : X) (frac_of : X * X * X -> vec T),
  (forall e, conj (conj e) = e) -> ScalarLaws T ->
  forall (big : E -> bool)
         (osb : list (op E X W L)) latb orgb dimb pbcb vacsb pmodb (sb : sc E T) (sosb : list (scop E))
         (osk : list (op E X W L)) latk orgk dimk pbck vacsk pmodk (sk : sc E T) (sosk : list (scop E))
         (is : list (iop E)),
  builds conj zero frac_of osb latb orgb dimb pbcb vacsb pmodb sb ->
  builds conj zero frac_of osk latk orgk dimk pbck vacsk pmodk sk ->
  let b := sc_run conj sb sosb in let k := sc_run conj sk sosk in
  let x := irun inter0 is in
  forall (view : string) (look : vec T -> T * T), (forall v, eye view v = Some (look v)) ->
  forall cj ar : bool,
  exists f dk, i_session false (fun _ _ _ => None) is (ianswers inter0 is) f /\ check_dim dimk = Some dk /\
  (in_bounds f (List.length (o_orb_id_pc (s_os b))) (List.length (o_orb_id_pc (s_os k))) ->
  exists pb pk, get_orb_pos b = Ok pb /\ get_orb_pos k = Ok pk /\
  (((forall r i j, f r i j = None) /\ plot_inter big b k x view cj ar = Err InterHopVoidError) \/
   exists cs keys segs, plot_inter big b k x view cj ar = Ok cs /\
     NoDup keys /\ (forall r i j, In (r, i, j) keys <-> exists e, f r i j = Some e /\ big e = true) /\
     Forall2 (seg pb pk (scaled dk latk) look cj) keys segs /\
     dots cs = [] /\ arrows cs = (if ar then concat segs else []) /\ lines cs = (if ar then [] else concat segs))).
Proof.
  intros E T X W L ST conj zero frac_of Hcc TL big osb latb orgb dimb pbcb vacsb pmodb sb sosb osk latk orgk dimk pbck vacsk pmodk sk sosk is Hb Hk b k x view look Hl cj ar.
  destruct (C53_inter_hoppings E T X W L ST conj zero frac_of Hcc osb latb orgb dimb pbcb vacsb pmodb sb sosb osk latk orgk dimk pbck vacsk pmodk sk sosk is false Hb Hk) as (f & dk & H1 & H2 & H3).
  exists f, dk. split; [exact H1|]. split; [exact H2|]. intros Hin. destruct (H3 Hin) as (pb & pk & P1 & P2 & H). fold b in P1, H. fold k in P2, H. fold x in H.
  exists pb, pk. split; [exact P1|]. split; [exact P2|]. destruct (view_total view look Hl) as (w & Ew & Hp).
  assert (Ek : (if cj then get_orb_pos k else Ok []) = Ok (if cj then pk else [])) by (destruct cj; [exact P2|reflexivity]).
  unfold plot_inter. rewrite Ew, P1. cbn [bind]. rewrite Ek. cbn [bind].
  destruct H as [[Hn ->]|[(_ & C & _)|(_ & _ & rows & -> & keys & Nd & Hkeys & HF)]]; [left; split; [exact Hn|reflexivity]|discriminate C|]. right. cbn [bind].
  destruct (ends_seen TL big f pb pk (scaled dk latk) w look cj Hp keys rows HF) as (ends & segs & E1 & E2 & E3).
  unfold plot_hops. rewrite E1. cbn [bind]. exists (if ar then map (fun q => arrow w (fst q) (snd q)) (concat ends) else [Lines (map (fun q : vec T * vec T => (proj w (fst q), proj w (snd q))) (concat ends))]), (filter (shown big f) keys), segs. split; [destruct ar; reflexivity|].
  split; [apply NoDup_filter, Nd|]. split.
  { intros r i j. rewrite filter_In, Hkeys. unfold shown. destruct (f r i j) as [e|]; split.
    - intros [_ H]. exists e. auto.
    - intros (e' & H & Hbig). injection H as <-. split; [discriminate|exact Hbig].
    - intros [_ H]. discriminate H.
    - intros (e' & H & _). discriminate H. }
  split; [exact E2|]. destruct ar.
  - destruct (arrow_only w (concat ends)) as (G1 & G2 & _). split; [exact G1|]. split; [rewrite (arrows_arrow TL); exact E3|exact G2].
  - split; [reflexivity|]. split; [reflexivity|]. unfold lines. cbn [flat_map]. rewrite app_nil_r. exact E3.
Qed.
Print Assumptions C86_inter.

(** Two terms between the same two orbitals, one in the next cell, and a weak
    term: four lines. *)
Example C86_inter_example :
  let x := irun inter0 [IAdd [0; 0] 0 3 (5, 0); IAdd [1; 0] 0 3 (5, 1); IAdd [0; 0] 1 2 (0, 0)] in
  exists cs l, plot_inter (fun e : Z * Z => 0 <? fst e) hc_sc hc_sc x "ab" true false = Ok cs /\ dots cs = [] /\ arrows cs = [] /\
    lines cs = l /\ List.length l = 4%nat /\ NoDup l /\
    plot_inter (fun e : Z * Z => 0 <? fst e) hc_sc hc_sc inter0 "ab" true false = Err InterHopVoidError.
Proof.
  eexists. eexists. split; [vm_compute; reflexivity|]. repeat split.
  repeat (constructor; [cbn; intuition discriminate|]). constructor.
Qed.
