(** Crystals with two-centre hoppings have the symmetries of their places: proof. *)
From Coq Require Import Reals Lra.
From Verif Require Import Prelude Vec Cx S_lat S_mat S_neigh S_sk M_sk P_sk S_skcell L_super L_base L_fold L_skcell L_skcell2.
Open Scope Z_scope.

Lemma Cre_esum {A} (f : A -> R) l : esum (map (fun x => Cre (f x)) l) = Cre (esum (map f l)).
Proof. induction l as [|x l IH]; cbn [map]; rewrite ?esum_nil, ?esum_cons; [reflexivity|]. rewrite IH. ceq; cbn; ring. Qed.
Lemma within_dec m r : {within m r} + {~ within m r}.
Proof. destruct m as [[a b] c], r as [[x y] z]. cbn. destruct (Z_le_dec (- a) x), (Z_le_dec x a), (Z_le_dec (- b) y), (Z_le_dec y b), (Z_le_dec (- c) z), (Z_le_dec z c); try (left; tauto); right; tauto. Qed.
Lemma cell_dec (r q : cell) : {r = q} + {r <> q}.
Proof. repeat decide equality. Qed.
Lemma len_zero : len (0, 0, 0)%R = 0%R.
Proof. unfold len, inner. replace (0 * 0 + 0 * 0 + 0 * 0)%R with 0%R by ring. apply sqrt_0. Qed.
Lemma rot_direction Q w : orthogonal Q -> rot Q (direction w) = direction (rot Q w).
Proof.
  intros HQ. unfold direction at 2. rewrite (rot_len Q w HQ). destruct w as [[x y] z]. unfold direction. set (N := len (x, y, z)). unfold rot, app3, sum3. cbn [comp fst snd]. repeat apply (f_equal2 pair); unfold Rdiv; ring.
Qed.

Section Inherit.
  Context (c : crystal Cplx) (os : Z -> orb) (eng : Z -> Cplx) (V : R -> sk_par) (m : Z * Z * Z) (cut : R).
  Context (Q : nat -> nat -> R) (t : point) (A B : cell -> cell) (shift : Z -> cell) (d : Z -> Z -> R).
  Context (HQ : orthogonal Q) (Hc : sk_crystal c os eng V m cut) (Htr : translations c).
  Context (Hsy : forall i, orbital_of c i -> symm (os i)).
  Context (Hpl : places_move c (motion_of Q t) A B shift d) (Hmv : moves_like (x_num c) os Q d) (Hrg : range_kept c A shift m cut).
  Context (Hen : forall i k, orbital_of c i -> orbital_of c k -> d k i <> 0%R -> eng k = eng i).
  Notation N := (zrange (Z.to_nat (x_num c))).
  Notation ok := (orbital_of c).

  Lemma in_N k : In k N <-> ok k.
  Proof using. clear. rewrite L_base.In_zrange. unfold orbital_of. lia. Qed.
  Lemma A_zero : A (0, 0, 0) = (0, 0, 0).
  Proof using Hpl.
    clear -Hpl. destruct Hpl as (Ha & _). specialize (Ha (0, 0, 0) (0, 0, 0)). change (cplus (0, 0, 0) (0, 0, 0)) with (0, 0, 0) in Ha. destruct (A (0, 0, 0)) as [[x y] z]. cbn [cplus] in Ha. injection Ha as H1 H2 H3. repeat apply (f_equal2 pair); lia.
  Qed.
  Definition image_cell (r : cell) (i j : Z) : cell := cplus (A r) (cminus (shift j) (shift i)).
  Lemma moved_bond r i j k l : ok i -> ok j -> ok k -> ok l -> d k i <> 0%R -> d l j <> 0%R ->
    diff3 (x_place c (image_cell r i j) l) (x_place c (0, 0, 0) k) = rot Q (diff3 (x_place c r j) (x_place c (0, 0, 0) i)).
  Proof using Hpl Htr.
    clear -Hpl Htr.
    intros Hi Hj Hk Hl H1 H2. pose proof Hpl as (_ & _ & Hp & _). pose proof (Hp r j l Hj Hl H2) as P1. pose proof (Hp (0, 0, 0) i k Hi Hk H1) as P2. rewrite A_zero in P2.
    rewrite <- (rot_diff Q t), P1, P2. destruct Htr as (_ & T). rewrite <- (T (shift i) (image_cell r i j) (0, 0, 0) l k Hl Hk). unfold image_cell.
    destruct (A r) as [[a b] e], (shift i) as [[p q] s], (shift j) as [[u v] w]. cbn [cplus cminus]. do 3 f_equal; repeat apply (f_equal2 pair); lia.
  Qed.
  Lemma same_place r i : ok i -> len (diff3 (x_place c r i) (x_place c (0, 0, 0) i)) = 0%R -> r = (0, 0, 0).
  Proof using Htr.
    clear -Htr.
    intros Hi H. destruct Htr as (T & _). apply (T (0, 0, 0) r i Hi). destruct (x_place c r i) as [[x y] z], (x_place c (0, 0, 0) i) as [[u v] w]. unfold len, diff3, inner in H. apply sqrt_eq_0 in H.
    - assert (G : forall p q s : R, (p * p + q * q + s * s = 0 -> p = 0)%R) by (intros p q s G; assert (p * p = 0)%R by nra; destruct (Rmult_integral p p); assumption). pose proof (G _ _ _ H) as H1. pose proof (G (y - v) (x - u) (z - w) ltac:(lra))%R as H2. pose proof (G (z - w) (x - u) (y - v) ltac:(lra))%R as H3. repeat apply (f_equal2 pair); lra.
    - pose proof (Rle_0_sqr (x - u)); pose proof (Rle_0_sqr (y - v)); pose proof (Rle_0_sqr (z - w)); unfold Rsqr in *; lra.
  Qed.
  Lemma term_zero (a b : R) e : a = 0%R \/ b = 0%R -> smul (smul (Cconj (Cre a)) e) (Cre b) = Cre 0.
  Proof using. intros [-> | ->]; destruct e; ceq; cbn; ring. Qed.
  Theorem inherit : symmetry Cconj c false (motion_of Q t) A B shift (fun k i => Cre (d k i)).
  Proof using All.
    pose proof Hpl as (HA & HB & Hp & Ho). split; [|split; [|split; [|split; [|split]]]].
    - intros p q. unfold gap. rewrite rot_diff. apply rot_len, HQ.
    - exact HA.
    - exact HB.
    - intros r i k Hi Hk Hd. apply Hp; try assumption. intros H. apply Hd. rewrite H. reflexivity.
    - intros i j Hi Hj. unfold overlap. transitivity (Cre (esum (map (fun k => d k i * d k j)%R N))).
      + rewrite <- Cre_esum. f_equal. apply map_ext. intros k. ceq; cbn; ring.
      + rewrite (Ho i j Hi Hj). destruct (i =? j); reflexivity.
    - intros r i j Hi Hj. cbn [cstar]. unfold moved. fold (image_cell r i j). set (w := diff3 (x_place c r j) (x_place c (0, 0, 0) i)).
      destruct (Hc r i j Hi Hj) as (C1 & C2 & C3). fold w in C2, C3.
      assert (HD : {within m r /\ (0 < len w <= cut)%R} + {~ (within m r /\ (0 < len w <= cut)%R)}).
      { destruct (within_dec m r) as [H|H]; [|right; tauto]. destruct (Rlt_le_dec 0 (len w)); [|right; intros (_ & H1); lra]. destruct (Rle_lt_dec (len w) cut); [left; split; [exact H|split; assumption]|right; intros (_ & H1); lra]. }
      destruct HD as [Hb|Hb].
      + rewrite (C2 Hb). rewrite <- (C33_rotation Q (os i) (os j) (direction w) (V (len w)) HQ), (rot_direction Q w HQ).
        rewrite (comb_l N os (fun k => d k i) (rot_orb Q (os i))); [|intros k Hk; apply Hsy, in_N, Hk|apply symm_rot, Hsy, Hi|intros v; apply Hmv, Hi|apply symm_rot, Hsy, Hj].
        f_equal. apply map_ext_in. intros k Hk. apply in_N in Hk. rewrite (comb_r N os (fun l => d l j) (rot_orb Q (os j))); [|intros l Hl; apply Hsy, in_N, Hl|apply symm_rot, Hsy, Hj|intros v; apply Hmv, Hj|apply Hsy, Hk].
        rewrite sc_out. f_equal. apply map_ext_in. intros l Hl. apply in_N in Hl.
        destruct (Req_dec (d k i) 0) as [E1|E1]; [rewrite term_zero by auto; rewrite E1; unfold sc; ceq; cbn; ring|]. destruct (Req_dec (d l j) 0) as [E2|E2]; [rewrite term_zero by auto; rewrite E2; unfold sc; ceq; cbn; ring|].
        pose proof (moved_bond r i j k l Hi Hj Hk Hl E1 E2) as Hw. fold w in Hw. destruct (Hc (image_cell r i j) k l Hk Hl) as (_ & D2 & _). rewrite Hw, (rot_len Q w HQ) in D2. rewrite D2.
        * unfold sc. ceq; cbn; ring.
        * split; [|apply Hb]. apply (Hrg r i j Hi Hj); [exact (proj2 Hb)|exact (proj1 Hb)].
      + transitivity (if cell_dec (image_cell r i j) (0, 0, 0) then smul (eng i) (Cre (esum (map (fun k => d k i * d k j)%R N))) else Cre 0).
        * assert (HT : forall k l, ok k -> ok l -> smul (smul (Cconj (Cre (d k i))) (x_amp c (image_cell r i j) k l)) (Cre (d l j)) = if k =? l then (if cell_dec (image_cell r i j) (0, 0, 0) then smul (eng i) (Cre (d k i * d l j)) else s0) else s0).
          { intros k l Hk Hl.
            assert (Z1 : d k i = 0%R \/ d l j = 0%R -> smul (smul (Cconj (Cre (d k i))) (x_amp c (image_cell r i j) k l)) (Cre (d l j)) = if k =? l then (if cell_dec (image_cell r i j) (0, 0, 0) then smul (eng i) (Cre (d k i * d l j)) else s0) else s0).
            { intros Hz. rewrite (term_zero _ _ _ Hz). destruct (k =? l); [|reflexivity]. destruct (cell_dec _ _); [|reflexivity]. replace (d k i * d l j)%R with 0%R by (destruct Hz as [-> | ->]; ring). destruct (eng i). ceq; cbn; ring. }
            destruct (Req_dec (d k i) 0) as [E1|E1]; [apply Z1; auto|]. destruct (Req_dec (d l j) 0) as [E2|E2]; [apply Z1; auto|]. clear Z1.
            pose proof (moved_bond r i j k l Hi Hj Hk Hl E1 E2) as Hw. fold w in Hw. destruct (Hc (image_cell r i j) k l Hk Hl) as (D1 & _ & D3). rewrite Hw, (rot_len Q w HQ) in D3.
            assert (Hnb : ~ (within m (image_cell r i j) /\ (0 < len w <= cut)%R)) by (intros (H1 & H2); apply Hb; split; [apply (Hrg r i j Hi Hj H2), H1|exact H2]).
            destruct (Z.eqb_spec k l) as [->|Hkl].
            - destruct (cell_dec (image_cell r i j) (0, 0, 0)) as [Hz|Hz].
              + rewrite D1 by auto. rewrite (Hen i l Hi Hl E1). destruct (eng i). ceq; cbn; ring.
              + rewrite D3; [ceq; cbn; ring|intros (H1 & _); contradiction|exact Hnb].
            - rewrite D3; [ceq; cbn; ring|intros (_ & H1); contradiction|exact Hnb]. }
          transitivity (esum (map (fun k => if cell_dec (image_cell r i j) (0, 0, 0) then smul (eng i) (Cre (d k i * d k j)) else s0) N)).
          -- f_equal. apply map_ext_in. intros k Hk. pose proof (proj1 (in_N k) Hk) as Hk'. rewrite (map_ext_in _ (fun l => if k =? l then (if cell_dec (image_cell r i j) (0, 0, 0) then smul (eng i) (Cre (d k i * d l j)) else s0) else s0)).
             ++ rewrite (pick CLaws (Z.to_nat (x_num c)) (fun l => if cell_dec (image_cell r i j) (0, 0, 0) then smul (eng i) (Cre (d k i * d l j)) else s0) k); [reflexivity|]. unfold orbital_of in Hk'. lia.
             ++ intros l Hl. apply HT; [exact Hk'|apply in_N, Hl].
          -- destruct (cell_dec (image_cell r i j) (0, 0, 0)); [rewrite (esum_mul_l CLaws), Cre_esum; reflexivity|]. apply (esum_zero CLaws). intros x Hx. apply in_map_iff in Hx. destruct Hx as (k & <- & _). reflexivity.
        * rewrite (Ho i j Hi Hj). destruct (Z.eqb_spec i j) as [<-|Hij].
          -- destruct (cell_dec r (0, 0, 0)) as [->|Hr].
             ++ rewrite C1 by auto. destruct (cell_dec _ _) as [_|Hz]; [destruct (eng i); ceq; cbn; ring|]. exfalso. apply Hz. unfold image_cell. rewrite A_zero. destruct (shift i) as [[a b] e]. cbn [cplus cminus]. repeat apply (f_equal2 pair); lia.
             ++ rewrite C3; [|intros (H1 & _); contradiction|exact Hb]. destruct (cell_dec _ _) as [Hz|_]; [|reflexivity]. exfalso. apply Hr. unfold image_cell in Hz.
                assert (Az : A r = (0, 0, 0)) by (destruct (A r) as [[p q] s], (shift i) as [[a b] e]; cbn [cplus cminus] in Hz; injection Hz as Z1 Z2 Z3; repeat apply (f_equal2 pair); lia).
                rewrite <- (proj2 (HB r)), Az. rewrite <- A_zero at 1. apply HB.
          -- rewrite C3; [|intros (_ & H1); contradiction|exact Hb]. destruct (cell_dec _ _); [|reflexivity]. destruct (eng i). ceq; cbn; ring.
  Qed.
End Inherit.
