(** Transition metal dichalcogenides (C72). *)
From Coq Require Import String Reals Lra Qreals.
From Verif Require Import Prelude Vec Qs Cx M_hop M_pc M_super M_build M_reshape M_lat M_hopdict M_graphene M_kane M_phos M_tmdc S_pc S_super S_build S_hopdict S_lat S_mat S_kane S_phos S_tmdc L_base L_hop L_pc L_super L_build L_mat L_gersh P_hopdict P_lat P_reshape2 P_graphene Kf L_sym L_dict P_kane.
Open Scope Z_scope.

(** ** Q(sqrt 3)(sqrt 2), with short cuts for zero *)
Section Fast.
  Context {A : Type} (SA : Scalar A) (isz : A -> bool).
  Definition FastScalar : Scalar A :=
    {| s0 := s0; s1 := s1;
       sadd := fun x y => if isz x then y else if isz y then x else sadd x y;
       smul := fun x y => if isz x then s0 else if isz y then s0 else smul x y;
       ssub := fun x y => if isz y then x else ssub x y;
       sopp := sopp; sZ := sZ |}.
  Lemma fast_hom (h : A -> R) : (forall x, isz x = true -> h x = s0) -> Hom h -> @Hom A R FastScalar RScalar h.
  Proof using.
    intros Hz Hh. constructor; cbn [s0 s1 sadd smul ssub sopp sZ FastScalar]; intros; try apply Hh.
    - destruct (isz a) eqn:Qa; [|destruct (isz b) eqn:Qb; [|apply Hh]]; rewrite ?(Hz _ Qa), ?(Hz _ Qb); cbn [s0 sadd RScalar]; ring.
    - destruct (isz a) eqn:Qa; [|destruct (isz b) eqn:Qb; [|apply Hh]]; rewrite ?(Hz _ Qa), ?(Hz _ Qb), (h_0 h Hh); cbn [s0 smul RScalar]; ring.
    - destruct (isz b) eqn:Qb; [|apply Hh]. rewrite (Hz _ Qb). cbn [s0 ssub RScalar]. ring.
  Qed.
End Fast.
Definition Qcz (x : Qc) : bool := Qnum (this x) =? 0.
Definition QF : Scalar Qc := FastScalar QcScalar Qcz.
Definition KT := quad (quad Qc).
Definition K3F : Scalar (quad Qc) := @QuadScalar Qc QF 3.
Definition KTz (x : KT) : bool := Qcz (qa (qa x)) && Qcz (qb (qa x)) && Qcz (qa (qb x)) && Qcz (qb (qb x)).
#[local] Instance KTScalar : Scalar KT := FastScalar (@QuadScalar (quad Qc) K3F 2) KTz.
Definition KTR : KT -> R := quadR 2 (quadR 3 Qc2R).
Lemma Qcz_0 x : Qcz x = true -> Qc2R x = 0%R.
Proof. unfold Qcz, Qc2R, Q2R. intros H. apply Z.eqb_eq in H. rewrite H. ring. Qed.
Lemma KTz_0 x : KTz x = true -> KTR x = 0%R.
Proof. unfold KTz. intros H. rewrite !andb_true_iff in H. destruct H as (((H1 & H2) & H3) & H4). unfold KTR, quadR. rewrite !Qcz_0 by assumption. ring. Qed.
Lemma KTR_hom : @Hom KT R KTScalar RScalar KTR.
Proof. apply fast_hom; [apply KTz_0|]. unfold KTR. apply (@quadR_hom _ K3F 2 (quadR 3 Qc2R)); [lia|]. apply (@quadR_hom _ QF 3 Qc2R); [lia|]. apply fast_hom; [apply Qcz_0|apply Qc2R_hom]. Qed.
Definition KTval (x : KT) : Cplx := Cre (KTR x).
Lemma KTval_hom : @Hom KT Cplx KTScalar CScalar KTval.
Proof.
  pose proof KTR_hom as H. constructor; unfold KTval; intros; rewrite ?(h_0 _ H), ?(h_1 _ H), ?(h_add _ H), ?(h_mul _ H), ?(h_sub _ H), ?(h_opp _ H), ?(h_Z _ H); ceq; try reflexivity; ring.
Qed.
Definition KTid (x : KT) : KT := x.
Lemma KTval_conj x : KTval (KTid x) = Cconj (KTval x).
Proof. unfold KTval, KTid. ceq; ring. Qed.
Definition KTeqb : KT -> KT -> bool := quad_eqb (quad_eqb Qceqb).
Lemma KTeqb_true a b : KTeqb a b = true -> a = b.
Proof. apply quad_eqb_true, quad_eqb_true, Qceqb_true. Qed.
Lemma KTeqb_h a b : KTeqb a b = true -> KTval a = KTval b.
Proof. intros H. apply KTeqb_true in H. congruence. Qed.
Definition Tq (a : Z) (b : positive) : KT := Qd (Qd (q_ a b) (q_ 0 1)) (Qd (q_ 0 1) (q_ 0 1)).
Definition Ts3 : KT := Qd (Qd (q_ 0 1) (q_ 1 1)) (Qd (q_ 0 1) (q_ 0 1)).
Definition Tis2 : KT := Qd (Qd (q_ 0 1) (q_ 0 1)) (Qd (q_ 1 2) (q_ 0 1)).
Lemma KTval_q a b : KTval (Tq a b) = Cq a b.
Proof. unfold KTval, KTR, quadR, Tq, Cq. cbn [qa qb]. rewrite !Qc2R_q. f_equal. unfold Rdiv. ring. Qed.
Lemma KTval_s3 : KTval Ts3 = Cre (sqrt 3).
Proof. unfold KTval, KTR, quadR, Ts3. cbn [qa qb]. rewrite !Qc2R_q. f_equal. field. Qed.
Lemma KTval_is2 : KTval Tis2 = Cre (1 / sqrt 2).
Proof.
  assert (H : (0 < sqrt 2)%R) by (apply sqrt_lt_R0; lra). assert (Q : (sqrt 2 * sqrt 2 = 2)%R) by (apply sqrt_sqrt; lra).
  unfold KTval, KTR, quadR, Tis2. cbn [qa qb]. rewrite !Qc2R_q. f_equal. revert H Q. change (IZR 2) with 2%R. generalize (sqrt 2). intros w H Q. field [Q]. lra.
Qed.
Definition KTnz (x : KT) : bool := negb (KTz x).
Lemma KTnz_big x : KTnz x = false -> Cbig (KTval x) = false.
Proof. unfold KTnz. intros H. apply Bool.negb_false_iff in H. unfold KTval. rewrite (KTz_0 _ H). apply Cbig_0. Qed.

(** ** The arrays *)
Section Maps.
  Context {K E : Type} {SK : Scalar K} {SE : Scalar E} (h : K -> E) (Hh : Hom h) (bigK : K -> bool) (big : E -> bool) (Hbig : forall x, bigK x = false -> big (h x) = false).
  Context (q : Z -> positive -> K) (s3 is2 : K) (q' : Z -> positive -> E) (s3' is2' : E) (Hq : forall a b, h (q a b) = q' a b) (Hs3 : h s3 = s3') (His2 : h is2 = is2').
  Let mm := map (map h).
  Lemma ent_map m i j : ent (mm m) i j = h (ent m i j).
  Proof using Hh. unfold ent, mm. change (@nil E) with (map h []). rewrite map_nth. rewrite <- (h_0 h Hh). apply map_nth. Qed.
  Definition same_asg (a : Z * Z * K) (b : Z * Z * E) : Prop := fst a = fst b /\ h (snd a) = snd b.
  Lemma assign_map l l' m : Forall2 same_asg l l' -> assign (mm m) l' = mm (assign m l).
  Proof using.
    unfold assign. intros H. revert m. induction H as [|a b l l' (H1 & H2) _ IH]; intros m; [reflexivity|]. cbn [fold_left]. rewrite <- IH, <- H1, <- H2. f_equal. apply mset_map.
  Qed.
  Lemma z11_map : z11 = mm z11.
  Proof using Hh. unfold z11, mm. cbn [repeat map]. rewrite (h_0 h Hh). reflexivity. Qed.
  Ltac homs := repeat first [rewrite (h_add h Hh)|rewrite (h_sub h Hh)|rewrite (h_opp h Hh)|rewrite (h_mul h Hh)|rewrite Hq|rewrite Hs3|rewrite ent_map|rewrite (h_0 h Hh)|rewrite (h_1 h Hh)]; try reflexivity.
  Ltac asgs := rewrite z11_map at 1; apply assign_map; lazy -[ent smul sadd sopp ssub s0 s1 by2 by4 x3 xs same_asg nth]; repeat (apply Forall2_cons; [split; [reflexivity|cbn [snd]; unfold by2, by4, x3, xs; homs]|]); apply Forall2_nil.
  Lemma hop_mat2_map m : hop_mat2 q' s3' (mm m) = mm (hop_mat2 q s3 m).
  Proof using Hh Hq Hs3. unfold hop_mat2. asgs. Qed.
  Lemma hop_mat3_map m : hop_mat3 q' s3' (mm m) = mm (hop_mat3 q s3 m).
  Proof using Hh Hq Hs3. unfold hop_mat3. asgs. Qed.
  Lemma assign_map2 l l' m m' : m' = mm m -> Forall2 same_asg l l' -> assign m' l' = mm (assign m l).
  Proof using. intros -> H. apply assign_map, H. Qed.
  Ltac cells := repeat (apply Forall2_cons; [split; [reflexivity|cbn [snd]; unfold by2, by4, x3, xs; homs]|]); apply Forall2_nil.
  Lemma step_mat4_map k m m2 : step_mat4 q' s3' (mm k) (mm m) m2 = mm (step_mat4 q s3 k m m2).
  Proof using Hh Hq Hs3.
    destruct m2 as [[[[p0 p1] p2] p3] p4]. unfold step_mat4.
    match goal with |- assign (assign (assign _ ?l1) _) _ = mm (assign (assign (assign _ ?l2) _) _) => assert (E1 : assign (mm m) l1 = mm (assign m l2)) by (apply assign_map; cells); rewrite E1 end.
    apply assign_map2; [|cells]. apply assign_map2; [reflexivity|]. cells.
  Qed.
  Lemma hop_mat4_map m : hop_mat4 q' s3' (mm m) = mm (hop_mat4 q s3 m).
  Proof using Hh Hq Hs3.
    unfold hop_mat4. apply assign_map2; [|cells]. rewrite z11_map at 1. generalize (@z11 K SK). induction list00 as [|a l IH]; intros z; [reflexivity|]. cbn [fold_left]. rewrite step_mat4_map. apply IH.
  Qed.
  Lemma nth_h l k : nth k (map h l) s0 = h (nth k l s0).
  Proof using Hh. rewrite <- (h_0 h Hh). apply map_nth. Qed.
  Lemma a_000_map eps m : a_000 (map h eps) (mm m) = mm (a_000 eps m).
  Proof using Hh. 
    unfold a_000. rewrite z11_map at 1; apply assign_map; lazy -[ent smul sadd sopp ssub s0 s1 same_asg nth]. repeat (apply Forall2_cons; [split; [reflexivity|cbn [snd]; rewrite ?nth_h, ?ent_map; reflexivity]|]); apply Forall2_nil.
  Qed.
  Lemma a_100_map m2 m3 m4 : a_100 (mm m2) (mm m3) (mm m4) = mm (a_100 m2 m3 m4).
  Proof using Hh Hq Hs3. unfold a_100. asgs. Qed.
  Lemma a_110_map m6 : a_110 (mm m6) = mm (a_110 m6).
  Proof using Hh Hq Hs3. unfold a_110. asgs. Qed.
  Lemma a_010_map m2 m3 m4 : a_010 (mm m2) (mm m3) (mm m4) = mm (a_010 m2 m3 m4).
  Proof using Hh Hq Hs3. unfold a_010. asgs. Qed.
  Lemma a__110_map m1 m6 : a__110 q' s3' (mm m1) (mm m6) = mm (a__110 q s3 m1 m6).
  Proof using Hh Hq Hs3. unfold a__110. asgs. Qed.
  Lemma unpacked_map k data : unpacked k (map h data) = mm (unpacked k data).
  Proof using Hh.
    unfold unpacked. apply assign_map2; [apply z11_map|]. rewrite skipn_map. generalize (skipn 11 data). induction targets as [|t ts IH]; intros [|x l]; cbn [map combine flat_map]; try constructor.
    cbn [fst snd]. destruct (fst t =? k); cbn [app]; [constructor; [split; reflexivity|]|]; apply IH.
  Qed.
  Lemma mdot_map a b : mdot (mm a) (mm b) = mm (mdot a b).
  Proof using Hh.
    unfold mdot, mm. rewrite !map_map. apply map_ext. intros i. rewrite map_map. apply map_ext. intros j. symmetry. apply (h_esum h Hh). intros x _. fold mm. rewrite !ent_map. apply (h_mul h Hh).
  Qed.
  Lemma transp_map a : transp (mm a) = mm (transp a).
  Proof using Hh. unfold transp, mm. rewrite !map_map. apply map_ext. intros i. rewrite map_map. apply map_ext. intros j. apply ent_map. Qed.
  Lemma trans_rows_map : trans_rows is2' = mm (trans_rows is2).
  Proof using Hh His2. unfold trans_rows, mm. cbv zeta. cbn [map]. rewrite (h_opp h Hh), (h_0 h Hh), (h_1 h Hh), His2. reflexivity. Qed.
  Lemma changed_map a : changed is2' (mm a) = mm (changed is2 a).
  Proof using Hh His2. unfold changed. cbv zeta. rewrite trans_rows_map, !transp_map, !mdot_map. reflexivity. Qed.
  Lemma gen_map data d es : gen_hop_dict q s3 is2 bigK data = Ok (d, es) -> gen_hop_dict q' s3' is2' big (map h data) = Ok (hd_map h d, map h es).
  Proof using Hh Hbig Hq Hs3 His2.
    unfold gen_hop_dict. cbv zeta. rewrite !unpacked_map, hop_mat2_map, hop_mat3_map, hop_mat4_map, firstn_map, a_000_map, a_100_map, a_110_map, a_010_map, a__110_map, !changed_map.
    rewrite (assign_map (map (fun i => (i, i, s0)) (zrange 11))).
    2:{ generalize (zrange 11). intros l. induction l as [|x l IH]; cbn [map]; constructor; [split; [reflexivity|apply (h_0 h Hh)]|exact IH]. }
    set (a0 := changed is2 (a_000 _ _)).
    match goal with |- bind (dscript bigK _ ?os) _ = _ -> bind (dscript big _ ?os') _ = _ => change os' with (map (dop_map h) os); destruct (dscript bigK (hd_new 11) os) as [d1|x] eqn:Q; [|intros H; discriminate H]; pose proof (dscript_map h (h_0 h Hh) bigK big Hbig os _ _ Q) as M end.
    change (hd_map h (hd_new 11)) with (@hd_new E 11) in M. rewrite M. cbn [bind]. intros H. injection H as <- <-. reflexivity.
  Qed.
End Maps.
Definition tm_pair (material : string) : hd KT * list KT :=
  match tm_consts material with
  | Ok data => match gen_hop_dict Tq Ts3 Tis2 KTnz (map (fun z => Tq z 10000) data) with Ok p => p | Err _ => (hd_new 0, []) end
  | Err _ => (hd_new 0, [])
  end.
Definition tm_kamp (material : string) : cell -> Z -> Z -> KT :=
  let p := tm_pair material in fun r i j => if cell_eqb r (0, 0, 0) && (i =? j) then nth (Z.to_nat i) (snd p) s0 else kamp KTeqb KTid 11 (fst p) r i j.
(** Columns: the images of the orbitals under a third of a turn. *)
Definition Tc : KT := Tq (-1) 2.
Definition Ts : KT := smul Ts3 (Tq 1 2).
Definition col3 (i : Z) : list (Z * KT) :=
  if i =? 0 then [(0, s1)] else
  if i =? 1 then [(1, Tc); (2, Ts)] else if i =? 2 then [(2, Tc); (1, sopp Ts)] else
  if i =? 3 then [(3, Tc); (4, Ts)] else if i =? 4 then [(4, Tc); (3, sopp Ts)] else
  if i =? 5 then [(5, Tc); (6, Ts)] else if i =? 6 then [(6, Tc); (5, sopp Ts)] else if i =? 7 then [(7, s1)] else
  if i =? 8 then [(8, Tc); (9, Ts)] else if i =? 9 then [(9, Tc); (8, sopp Ts)] else [(10, s1)].
Definition colx (i : Z) : list (Z * KT) := [(i, if (i =? 1) || (i =? 3) || (i =? 5) || (i =? 8) then sopp s1 else s1)].
Definition colz (i : Z) : list (Z * KT) := [(if i <? 5 then i else if i <? 8 then i + 3 else i - 3, if (i =? 3) || (i =? 4) || (i =? 7) || (i =? 10) then sopp s1 else s1)].
Definition of_cols (f : Z -> list (Z * KT)) (k i : Z) : KT := match find (fun p => fst p =? k) (f i) with Some p => snd p | None => s0 end.
Definition mZ : mat Z := ((1, 0, 0), (0, 1, 0), (0, 0, -1)).
Definition shm (i : Z) : cell := if i <? 5 then (-1, 0, 0) else (0, 0, 0).
Definition tck material mA mB sh f := sym_check KTeqb KTid 11 (tm_kamp material) false mA mB sh (of_cols f) (1, 1, 0) (4, 4, 0).
Definition known (material : string) : Prop := In material ["MoS2"; "MoSe2"; "WS2"; "WSe2"]%string.
Definition tm_herm (material : string) : bool :=
  let a := tm_kamp material in forallb (fun r => both 11 (fun i j => KTeqb (a (cminus (0, 0, 0) r) j i) (a r i j))) (box (1, 1, 0)).
Lemma tm_pair_ok material : known material -> exists data a d,
  tm_struct material = Ok (a, d) /\ 0 < a /\ 0 < d /\
  tm_consts material = Ok data /\ gen_hop_dict Tq Ts3 Tis2 KTnz (map (fun z => Tq z 10000) data) = Ok (tm_pair material) /\
  kinv 11 (fst (tm_pair material)) = true /\ kconsistent KTeqb KTid 11 (fst (tm_pair material)) = true /\ kdiag KTeqb 11 (fst (tm_pair material)) = true /\ kboxed (1, 1, 0) (fst (tm_pair material)) = true /\
  Datatypes.length (snd (tm_pair material)) = 11%nat /\ tm_herm material = true.
Proof.
  intros H. repeat (destruct H as [<-|H]; [eexists _, _, _; split; [reflexivity|]; split; [reflexivity|]; split; [reflexivity|]; split; [reflexivity|]; repeat apply conj; vm_compute; reflexivity|]). destruct H.
Qed.
Lemma tm_checks material : known material -> tck material mZ mZ sh0 colz = true /\ tck material mS mS sh0 colx = true /\ tck material m3 m3i shm col3 = true.
Proof. intros H. repeat (destruct H as [<-|H]; [repeat apply conj; vm_compute; reflexivity|]). destruct H. Qed.
Lemma KT00 : KTeqb s0 s0 = true. Proof. reflexivity. Qed.
Lemma KTid0 : KTid s0 = (s0 : KT). Proof. reflexivity. Qed.
Lemma tm_box material r i j : known material -> in_box (1, 1, 0) r = false -> tm_kamp material r i j = s0.
Proof.
  intros Hm H. unfold tm_kamp. cbv zeta. destruct (cell_eqb r (0, 0, 0)) eqn:Q; [apply cell_eqb_true in Q; subst r; discriminate H|]. cbn [andb].
  destruct (tm_pair_ok material Hm) as (data & a & d & _ & _ & _ & _ & _ & _ & _ & _ & Hb & _). apply (kamp_out KTeqb KT00 KTid KTid0 11 (1, 1, 0)); assumption.
Qed.

(** ** The cell *)
Definition tm_frac (d : R) (i : Z) : point :=
  if i <? 5 then (1 / 3, 1 / 3, d / 2)%R else if i <? 8 then (0, 0, d)%R else (0, 0, 0)%R.
Lemma tm_cart a d : (0 < a)%R -> cart2frac (tm_vectors a) (tm_coords a d) (0, 0, 0)%R = Ok (map (tm_frac d) (zrange 11)).
Proof.
  intros Ha. pose proof s3_pos as Hs. pose proof s3_sq as Hq.
  destruct (C30_inverse (a / 2, a * sqrt 3 / 2, 0)%R (- a / 2, a * sqrt 3 / 2, 0)%R (0, 0, 1)%R (0, 0, 0)%R) as (F & _ & I).
  - intros [[x y] z]. unfold affine. intros Q. apply triple_inv in Q. destruct Q as (Q1 & Q2 & Q3).
    assert (x - y = 0)%R by (apply (Rmult_eq_reg_r (a / 2)); lra). assert (x + y = 0)%R by (apply (Rmult_eq_reg_r (a * sqrt 3 / 2)); [lra|apply Rgt_not_eq, Rmult_lt_0_compat; [apply Rmult_lt_0_compat; lra|lra]]). repeat (apply (f_equal2 pair)); lra.
  - apply I. rewrite F. apply (f_equal Ok). rewrite map_map. unfold tm_coords, tm_frac, affine.
    cbn; repeat (apply (f_equal2 cons); [repeat (apply (f_equal2 pair)); try (field [Hq]; lra)|]); reflexivity.
Qed.
Lemma cases11 (P : Z -> Prop) : P 0 -> P 1 -> P 2 -> P 3 -> P 4 -> P 5 -> P 6 -> P 7 -> P 8 -> P 9 -> P 10 -> forall i, 0 <= i < 11 -> P i.
Proof.
  intros. assert (C : i = 0 \/ i = 1 \/ i = 2 \/ i = 3 \/ i = 4 \/ i = 5 \/ i = 6 \/ i = 7 \/ i = 8 \/ i = 9 \/ i = 10) by lia.
  repeat (destruct C as [->|C]; [assumption|]). subst i. assumption.
Qed.
Definition tm_names (e : string * string * string) : list string :=
  let '(m, xa, xb) := e in map (fun o => m ++ "_" ++ o)%string metal_orbs ++ map (fun o => xa ++ "_" ++ o)%string chalcogen_orbs ++ map (fun o => xb ++ "_" ++ o)%string chalcogen_orbs.
Lemma tm_made material : known material -> exists m a d e, tmdc material = Ok m /\ tm_struct material = Ok (a, d) /\ 0 < a /\ 0 < d /\ tm_elements material = Ok e /\
  m_lat m = tm_vectors (IZR a / 1000) /\ map (@label _ _ _) (orbs (m_pc m)) = tm_names e /\
  let x := crystal_of (fun v => v) (m_lat m) (abs Cconj (m_pc m)) in
  x_num x = 11 /\ (forall r i j, 0 <= i < 11 -> 0 <= j < 11 -> x_amp x r i j = KTval (tm_kamp material r i j)) /\ placed 11 x (m_lat m) (tm_frac (IZR d / 1000)).
Proof.
  intros Hm. destruct (tm_pair_ok material Hm) as (data & a & d & Hst & Ha & Hd & Hco & Hgen & Hk & Hcs & Hdi & Hbx & Hlen & _).
  assert (Hel : exists e, tm_elements material = Ok e) by (repeat (destruct Hm as [<-|Hm]; [eexists; reflexivity|]); destruct Hm). destruct Hel as (e & Hel).
  unfold tmdc. rewrite Hst, Hco. cbn [bind fst snd]. destruct (tm_pair material) as [pd pe] eqn:Hpair. cbn [fst snd] in *.
  assert (Hdata : map (fun z => Cq z 10000) data = map KTval (map (fun z => Tq z 10000) data)) by (rewrite map_map; apply map_ext; intros z; rewrite KTval_q; reflexivity).
  rewrite Hdata, (gen_map KTval KTval_hom KTnz Cbig KTnz_big Tq Ts3 Tis2 Cq (Cre (sqrt 3)) (Cre (1 / sqrt 2)) KTval_q KTval_s3 KTval_is2 _ _ _ Hgen). cbn [bind fst snd].
  rewrite tm_cart by (apply Rdiv_lt_0_compat; [apply IZR_lt, Ha|lra]). cbn [bind]. unfold tm_labels. rewrite Hel. cbn [bind].
  destruct e as [[em ea] eb]. cbn [bind].
  do 12 (destruct pe as [|? pe]; [try discriminate Hlen|]). 2:{ discriminate Hlen. }
  set (os := map _ (combine _ _)).
  assert (Hs : exists s : pc Cplx R Cplx string, script Cconj 0%R pc_empty os = Ok s /\ locked s = false /\ hop s = [] /\ orbs s =
    map (fun q : point * Cplx * string => {| position := fst (fst q); energy := snd (fst q); label := snd q |}) (combine (combine (map (tm_frac (IZR d / 1000)) (zrange 11)) (map KTval [k; k0; k1; k2; k3; k4; k5; k6; k7; k8; k9])) (tm_names (em, ea, eb)))).
  { eexists; split; [reflexivity|]; split; [reflexivity|]; split; reflexivity. }
  destruct Hs as (s & Hs & Hl & Hh & Ho). rewrite Hs. cbn [bind].
  assert (Hnum : num_orb s = 11) by (unfold num_orb; rewrite Ho; reflexivity).
  destruct (dict_apply KTeqb KT00 KTid KTid0 11 KTval (h_0 _ KTval_hom) Cconj conjconj KTval_conj KTeqb_h Cis0 Cbig Cis0_spec Cbig_0
    pd s ltac:(lia) (kinv_ok KTval 11 pd Hk) Hcs Hdi) as (s' & d' & D2 & D3 & D4 & D5 & D6).
  { unfold Inv. rewrite Hh. apply hop_ok_nil. }
  { exact Hl. } { exact Hnum. } { intros R i j. cbn [abs a_hop]. rewrite Hh. apply get_nil. }
  rewrite D2. eexists. exists a, d, (em, ea, eb). split; [reflexivity|]. split; [reflexivity|]. split; [exact Ha|]. split; [exact Hd|]. split; [reflexivity|]. split; [reflexivity|]. cbn [m_lat m_pc]. split; [rewrite D5, Ho; reflexivity|]. cbv zeta.
  change (x_num (crystal_of (fun v : R => v) (tm_vectors (IZR a / 1000)) (abs Cconj s'))) with (Z.of_nat (Datatypes.length (orbs s'))). rewrite D5. split; [exact Hnum|]. split.
  - intros r i j Hi Hj. unfold tm_kamp. rewrite Hpair. cbv zeta. cbn [fst snd]. unfold tm_vectors. destruct r as [[x y] z]. pose proof (D6 (x, y, z) i j Hi Hj) as Ha1. cbn [crystal_of x_amp abs a_orbs cell_eqb]. unfold a_hop, abs in Ha1 |- *.
    destruct ((x =? 0) && (y =? 0) && (z =? 0) && (i =? j)) eqn:Q.
    + rewrite D5, Ho. clear -Hi. revert i Hi. apply cases11; reflexivity.
    + rewrite <- Ha1. reflexivity.
  - intros r i Hi. destruct r as [[x y] z]. unfold tm_vectors. cbn [crystal_of x_place abs a_orbs]. rewrite D5, Ho. clear -Hi. revert i Hi. apply cases11; reflexivity.
Qed.

(** ** Symmetries *)
Definition GX : mat R := ((-1, 0, 0), (0, 1, 0), (0, 0, 1))%R.
Definition GZ : mat R := ((1, 0, 0), (0, 1, 0), (0, 0, -1))%R.
Lemma tm_sym material (x : crystal Cplx) a d mA mB shift f G w g :
  known material -> x_num x = 11 -> (forall r i j, 0 <= i < 11 -> 0 <= j < 11 -> x_amp x r i j = KTval (tm_kamp material r i j)) -> placed 11 x (tm_vectors a) (tm_frac d) ->
  tck material mA mB shift f = true -> ortho G -> (forall p, motion G (vmat w (tm_vectors a)) p = g p) ->
  (let (p, a2) := tm_vectors a in let (a0, a1) := p in (vmat a0 G, vmat a1 G, vmat a2 G)) = new_lat mA (tm_vectors a) ->
  (forall i k, 0 <= i < 11 -> 0 <= k < 11 -> In k (map fst (f i)) ->
     vadd (vmat (tm_frac d i) (let '(a, b, c) := mA in (vZ a, vZ b, vZ c))) w = vadd (tm_frac d k) (vZ (shift i))) ->
  symmetry Cconj x false g (zm mA) (zm mB) shift (fun k i => KTval (of_cols f k i)).
Proof.
  intros Hm Hn Ha Hp Hck HG Hg Hlat Hpos.
  apply (symmetry_ext Cconj x false (motion G (vmat w (tm_vectors a))) g (zm mA) (zm mA) (zm mB) (zm mB) shift shift (fun k i => KTval (of_cols f k i))); try reflexivity; [exact Hg|].
  apply (check_symmetry KTeqb KTid 11 (tm_kamp material) false mA mB shift (of_cols f) CLaws Cconj KTval KTval_hom KTval_conj KTeqb_h x (tm_vectors a) (tm_frac d) G w (1, 1, 0) (4, 4, 0)); try assumption.
  - intros r i j _ _ H. apply tm_box; assumption.
  - apply conj0.
  - intros i k Hi Hk HD. apply Hpos; [assumption|assumption|]. unfold of_cols in HD. destruct (find (fun p => fst p =? k) (f i)) as [p|] eqn:Q; [|contradiction HD; reflexivity].
    apply find_some in Q. destruct Q as (Q1 & Q2). apply Z.eqb_eq in Q2. subst k. apply in_map, Q1.
Qed.
Lemma KTval_Tc : KTval Tc = Cre (- (1 / 2)).
Proof. unfold Tc. rewrite KTval_q. unfold Cq. f_equal. field. Qed.
Lemma KTval_Ts : KTval Ts = Cre (sqrt 3 / 2).
Proof. unfold Ts. rewrite (h_mul _ KTval_hom), KTval_s3, KTval_q. unfold Cq. ceq; field. Qed.
Lemma C_sum3 (a b : Cplx) : sadd a b = Cadd a b. Proof. reflexivity. Qed.
Ltac acting :=
  lazy -[KT Cplx KTval s0 s1 sopp sadd Tc Ts Cre Cmul Rmult Rplus Rminus Ropp Rdiv Rinv sqrt IZR KTScalar CScalar];
  rewrite ?(h_opp _ KTval_hom), ?(h_0 _ KTval_hom), ?(h_1 _ KTval_hom), ?KTval_Tc, ?KTval_Ts; ceq.
Lemma acts3 : acts_on layer_orbs rot3 (fun k i => KTval (of_cols col3 k i)).
Proof.
  intros i [[x y] z] Hi. change (Z.of_nat (Datatypes.length layer_orbs)) with 11 in Hi. revert i Hi. pose proof s3_sq as Hs.
  apply cases11; acting; field [Hs].
Qed.
Lemma actsx : acts_on layer_orbs flip_x (fun k i => KTval (of_cols colx k i)).
Proof.
  intros i [[x y] z] Hi. change (Z.of_nat (Datatypes.length layer_orbs)) with 11 in Hi. revert i Hi.
  apply cases11; acting; field.
Qed.
Lemma actsz : acts_on layer_orbs flip_z (fun k i => KTval (of_cols colz k i)).
Proof.
  intros i [[x y] z] Hi. change (Z.of_nat (Datatypes.length layer_orbs)) with 11 in Hi. revert i Hi.
  apply cases11; acting; field.
Qed.

(** * C72 *)
(** make_tmdc for each of the four documented materials: the metal and the two
    chalcogens are at the documented places, the labels name the orbitals, the
    Hamiltonian is real and Hermitian and has the symmetries of the layer: a
    third of a turn about a chalcogen, the reflection of x and the reflection
    in the plane of the metal, each acting on the orbitals like on atomic ones. *)
Theorem C72_symmetries : forall material, In material ["MoS2"; "MoSe2"; "WS2"; "WSe2"]%string ->
  exists m a d e, tmdc material = Ok m /\ tm_struct material = Ok (a, d) /\ tm_elements material = Ok e /\
  let a' := (IZR a / 1000)%R in let d' := (IZR d / 1000)%R in
  (0 < a' /\ 0 < d')%R /\ m_lat m = tm_vectors a' /\
  let x := crystal_of (fun v => v) (m_lat m) (abs Cconj (m_pc m)) in
  x_num x = 11 /\
  (forall i, 0 <= i < 11 ->
     x_place x (0, 0, 0) i = (if i <? 5 then (0, a' / sqrt 3, d' / 2) else if i <? 8 then (0, 0, d') else (0, 0, 0))%R /\
     option_map (@label _ _ _) (nth_error (orbs (m_pc m)) (Z.to_nat i)) =
       Some (String.append (if i <? 5 then fst (fst e) else if i <? 8 then snd (fst e) else snd e) ("_" ++ nth (Z.to_nat i) layer_orbs "")%string)) /\
  (forall r i j, orbital_of x i -> orbital_of x j -> snd (x_amp x r i j) = 0%R /\ x_amp x (cminus (0, 0, 0) r) j i = Cconj (x_amp x r i j)) /\
  orbital_symmetry x layer_orbs rot3 rot3 /\
  orbital_symmetry x layer_orbs flip_x flip_x /\
  orbital_symmetry x layer_orbs (flip_at d') flip_z.
Proof.
  intros material Hm. destruct (tm_made material Hm) as (m & a & d & e & Hmk & Hst & Ha & Hd & Hel & Hlat & Hlab & Hn & Hamp & Hp). exists m, a, d, e. split; [exact Hmk|]. split; [exact Hst|]. split; [exact Hel|]. cbv zeta in *.
  set (a' := (IZR a / 1000)%R) in *. set (d' := (IZR d / 1000)%R) in *.
  assert (Ha' : (0 < a')%R) by (apply Rdiv_lt_0_compat; [apply IZR_lt, Ha|lra]). assert (Hd' : (0 < d')%R) by (apply Rdiv_lt_0_compat; [apply IZR_lt, Hd|lra]).
  split; [split; assumption|]. split; [exact Hlat|]. rewrite Hlat in *. split; [exact Hn|].
  pose proof s3_pos as H3. pose proof s3_sq as H3q. destruct (tm_checks material Hm) as (K1 & K2 & K3').
  split; [|split; [|split; [|split]]].
  - intros i Hi. split.
    + rewrite (Hp _ i Hi). unfold tm_frac, tm_vectors, affine, vadd, vZ. cbn [sadd sZ RScalar].
      destruct (i <? 5); [|destruct (i <? 8)]; repeat (apply (f_equal2 pair)); try (field [H3q]; lra).
    + rewrite <- nth_error_map, Hlab. destruct e as [[em ea] eb]. clear -Hi. revert i Hi. apply cases11; reflexivity.
  - unfold orbital_of. rewrite Hn. intros r i j Hi Hj. rewrite !Hamp by assumption. split; [reflexivity|]. rewrite <- KTval_conj. unfold KTid. destruct (in_box (1, 1, 0) r) eqn:Qb.
    + destruct (tm_pair_ok material Hm) as (_ & _ & _ & _ & _ & _ & _ & _ & _ & _ & _ & _ & _ & Hk). unfold tm_herm in Hk. cbv zeta in Hk. rewrite forallb_forall in Hk. specialize (Hk r (proj2 (In_box _ _) Qb)). apply KTeqb_h. apply (both_true 11 _ Hk i j Hi Hj).
    + rewrite !tm_box; [reflexivity|exact Hm|exact Qb|exact Hm|]. rewrite <- Qb. destruct r as [[x y] z]. unfold in_box. cbn [cminus]. rewrite !Z.sub_0_l, !Z.abs_opp. reflexivity.
  - exists (zm m3), (zm m3i), shm, (fun k i => KTval (of_cols col3 k i)). split; [|apply acts3].
    apply (tm_sym material _ a' d' m3 m3i shm col3 G3 (0, 0, 0)%R rot3); try assumption.
    + unfold ortho, G3, inner. repeat split; field [H3q].
    + intros [[x y] z]. unfold motion, rot3, G3, tm_vectors, vmat, vadd. cbn [sadd smul RScalar]. repeat (apply (f_equal2 pair)); field.
    + unfold tm_vectors, new_lat, m3, G3, vmat, vZ. cbn [sadd smul sZ RScalar]. repeat (apply (f_equal2 pair)); field [H3q].
    + intros i k Hi Hk Hs1. assert (Q : (k <? 5) = (i <? 5) /\ (k <? 8) = (i <? 8)) by (clear -Hi Hs1; revert i Hi Hs1; apply (cases11 (fun i => In k (map fst (col3 i)) -> (k <? 5) = (i <? 5) /\ (k <? 8) = (i <? 8))); cbn; intros Hs1; repeat (destruct Hs1 as [<-|Hs1]; [split; reflexivity|]); destruct Hs1).
      destruct Q as (Q1 & Q2). unfold tm_frac, shm. rewrite Q1, Q2. destruct (i <? 5); [|destruct (i <? 8)]; unfold m3, vmat, vZ, vadd; cbn [sadd smul sZ RScalar]; repeat (apply (f_equal2 pair)); field.
  - exists (zm mS), (zm mS), sh0, (fun k i => KTval (of_cols colx k i)). split; [|apply actsx].
    apply (tm_sym material _ a' d' mS mS sh0 colx GX (0, 0, 0)%R flip_x); try assumption.
    + unfold ortho, GX, inner. lra.
    + intros [[x y] z]. unfold motion, flip_x, GX, tm_vectors, vmat, vadd. cbn [sadd smul RScalar]. repeat (apply (f_equal2 pair)); field.
    + unfold tm_vectors, new_lat, mS, GX, vmat, vZ. cbn [sadd smul sZ RScalar]. repeat (apply (f_equal2 pair)); field.
    + intros i k Hi Hk [<-|[]]. cbn [fst]. unfold tm_frac, sh0. destruct (i <? 5); [|destruct (i <? 8)]; unfold mS, vmat, vZ, vadd; cbn [sadd smul sZ RScalar]; repeat (apply (f_equal2 pair)); field.
  - exists (zm mZ), (zm mZ), sh0, (fun k i => KTval (of_cols colz k i)). split; [|apply actsz].
    apply (tm_sym material _ a' d' mZ mZ sh0 colz GZ (0, 0, d')%R (flip_at d')); try assumption.
    + unfold ortho, GZ, inner. lra.
    + intros [[x y] z]. unfold motion, flip_at, GZ, tm_vectors, vmat, vadd. cbn [sadd smul RScalar]. repeat (apply (f_equal2 pair)); field.
    + unfold tm_vectors, new_lat, mZ, GZ, vmat, vZ. cbn [sadd smul sZ RScalar]. repeat (apply (f_equal2 pair)); field.
    + intros i k Hi Hk [<-|[]]. cbn [fst]. unfold tm_frac, sh0. clear -Hi. revert i Hi. apply cases11; cbn [Z.ltb Z.compare Pos.compare Pos.compare_cont Z.add Z.sub Z.opp Z.pos_sub Pos.add Pos.pred_double Pos.succ]; unfold mZ, vmat, vZ, vadd; cbn [sadd smul sZ RScalar]; repeat (apply (f_equal2 pair)); field.
Qed.
Print Assumptions C72_symmetries.

(** Other names are refused. *)
Theorem C72_refused : forall material, ~ In material ["MoS2"; "MoSe2"; "WS2"; "WSe2"]%string -> tmdc material = Err NotImplementedError.
Proof.
  intros material H. unfold tmdc, tm_struct.
  assert (Q : forall s, In s ["MoS2"; "MoSe2"; "WS2"; "WSe2"]%string -> String.eqb material s = false) by (intros s Hs; apply String.eqb_neq; intros ->; apply H, Hs).
  rewrite !Q by (cbn; tauto). reflexivity.
Qed.
Print Assumptions C72_refused.

(** In MoS2 the hopping between neighbouring dz2 orbitals along x is -0.2979 eV,
    and the dxz orbital is at 1.0688 eV. *)
Example C72_witness : exists m, tmdc "MoS2" = Ok m /\
  let x := crystal_of (fun v => v) (m_lat m) (abs Cconj (m_pc m)) in
  x_amp x (-1, 1, 0) 0 0 = Cre (-2979 / 10000) /\ x_amp x (0, 0, 0) 3 3 = Cre (10688 / 10000).
Proof.
  destruct (tm_made "MoS2" ltac:(left; reflexivity)) as (m & a & d & e & Hmk & _ & _ & _ & _ & _ & _ & _ & Hamp & _). exists m. split; [exact Hmk|]. cbv zeta in *. rewrite !Hamp by lia. split.
  - rewrite (KTeqb_h _ (Tq (-2979) 10000)) by (vm_compute; reflexivity). rewrite KTval_q. reflexivity.
  - rewrite (KTeqb_h _ (Tq 10688 10000)) by (vm_compute; reflexivity). rewrite KTval_q. reflexivity.
Qed.
Example C72_refused_witness : tmdc "MoTe2" = Err NotImplementedError.
Proof. reflexivity. Qed.
