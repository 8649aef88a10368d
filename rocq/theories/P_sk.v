(** Slater-Koster integrals: two-centre formula (C33) and Hermiticity (C34). *)
From Coq Require Import Reals Lra String.
From Verif Require Import Prelude Vec Cx L_gersh M_sk S_sk.
Local Open Scope R_scope.
Local Open Scope string_scope.

Definition labels : list string := ["s"; "px"; "py"; "pz"; "dxy"; "dyz"; "dzx"; "dx2-y2"; "dz2"]%list.
Lemma orbital_label l o : orbital l = Some o -> In l labels.
Proof.
  unfold orbital, labels. cbv zeta. repeat match goal with |- (if String.eqb l ?s then _ else _) = _ -> _ => destruct (String.eqb_spec l s) as [->|_]; [intros _; cbn [In]; tauto|] end. discriminate.
Qed.
(** The order in which the code takes the labels: the integrals of a pair in the
    other order are conjugates. *)
Definition rank (l : string) : nat := if l =? "s" then 0 else if is_p l then 1 else 2.
Definition reversed (i j : string) : bool := (rank j <? rank i)%nat || (rank i =? 2)%nat && (rank j =? 2)%nat && (d_index j <? d_index i)%nat.
Definition unit3 (r : v3) : v3 := let N := sqrt (dot3 r r) in (comp r 0 / N, comp r 1 / N, comp r 2 / N).

Section Dir.
  Context (x y z N : R) (HN : norm3 (x, y, z) = N) (Hbig : / 10 ^ 15 < N).
  Lemma dir_any p q r : p * p + q * q + r * r = x * x + y * y + z * z -> eval_dir_cos (p, q, r) = Ok (p / N, q / N, r / N).
  Proof using HN Hbig.
    intros H. unfold eval_dir_cos. assert (E : norm3 (p, q, r) = N) by (rewrite <- HN; unfold norm3; cbn [comp fst snd]; f_equal; exact H). rewrite E.
    destruct (Rleb N (/ 10 ^ 15)) eqn:E1; [apply Rleb_spec in E1; lra|]. reflexivity.
  Qed.
  Lemma dir_unit : (z / N) * (z / N) = 1 - (x / N) * (x / N) - (y / N) * (y / N).
  Proof using HN Hbig.
    assert (Hp : 0 < N). { apply Rlt_trans with (/ 10 ^ 15); [|exact Hbig]. apply Rinv_0_lt_compat, pow_lt. lra. }
    assert (H2 : N * N = x * x + y * y + z * z).
    { rewrite <- HN. unfold norm3. cbn [comp fst snd]. apply sqrt_sqrt. pose proof (Rle_0_sqr x). pose proof (Rle_0_sqr y). pose proof (Rle_0_sqr z). unfold Rsqr in *. lra. }
    assert (H3 : z * z = N * N - x * x - y * y) by lra. transitivity (z * z / (N * N)); [field; lra|]. rewrite H3. field. lra.
  Qed.
  Lemma dir_neg p : - p / N = - (p / N).
  Proof using HN Hbig. field. assert (0 < N); [|lra]. apply Rlt_trans with (/ 10 ^ 15); [|exact Hbig]. apply Rinv_0_lt_compat, pow_lt. lra. Qed.
End Dir.
Lemma two_over_sqrt3 : 2 / sqrt 3 = 2 / 3 * sqrt 3.
Proof. assert (H : sqrt 3 * sqrt 3 = 3) by (apply sqrt_sqrt; lra). assert (H0 : sqrt 3 <> 0) by (intros E; rewrite E in H; lra). apply (Rmult_eq_reg_r (sqrt 3)); [|exact H0]. rewrite Rmult_assoc, H. field. exact H0. Qed.

(** ** C33 *)
Theorem C33_complex : forall (r : v3) (i j : string) (oi oj : orb) (V : sk_par),
  orbital i = Some oi -> orbital j = Some oj -> / 10 ^ 15 < sqrt (dot3 r r) ->
  sk_eval r i j V = Ok (two_centre oi oj (unit3 r) (if reversed i j then conj_par V else V)).
Proof.
  intros [[x y] z] i j oi oj V Hi Hj Hbig. pose proof (orbital_label _ _ Hi) as Li. pose proof (orbital_label _ _ Hj) as Lj.
  set (N := sqrt (dot3 (x, y, z) (x, y, z))) in *. assert (HN : norm3 (x, y, z) = N) by reflexivity.
  pose proof (dir_any x y z N HN Hbig) as D. pose proof (dir_unit x y z N HN Hbig) as U. pose proof (dir_neg x y z N HN Hbig) as G.
  unfold unit3. fold N. cbn [comp fst snd].
  assert (Hs : sqrt 3 * sqrt 3 = 3) by (apply sqrt_sqrt; lra).
  pose proof two_over_sqrt3 as T3.
  destruct V as [[v1r v1i] [v2r v2i] [v3r v3i] [v4r v4i] [v5r v5i] [v6r v6i] [v7r v7i] [v8r v8i] [v9r v9i] [v0r v0i]].
  unfold labels in Li, Lj. cbn [In] in Li, Lj.
  repeat (destruct Li as [<-|Li]); [..|destruct Li]; cbn in Hi; injection Hi as <-; (repeat (destruct Lj as [<-|Lj]); [..|destruct Lj]; cbn in Hj; injection Hj as <-).
  all: unfold sk_eval, ps, ds, dp, dd, conj_res, neg3; cbn -[Rmult Rplus Rminus Ropp Rdiv Rinv IZR pow sqrt eval_dir_cos sc Cadd Csub two_centre sqrt3 half_sqrt3 sym].
  all: unfold neg3; cbn [comp fst snd]; rewrite ?D by (cbn [comp fst snd]; ring); cbn [bind conj_res comp fst snd].
  all: unfold conj_res; cbn [bind]; apply f_equal; rewrite ?G; clear -U Hs T3; revert U; generalize (x / N) (y / N) (z / N); intros a b c U.
  all: unfold two_centre; cbn -[Rmult Rplus Rminus Ropp Rdiv Rinv IZR pow sqrt sqrt3 half_sqrt3]; rewrite ?T3; unfold half_sqrt3, sqrt3; clear T3; revert Hs; generalize (sqrt 3); intros s3 Hs.
  all: unfold tr2, quad, dot3, app3, sum3.
  all: apply Ceq; cbn -[Rmult Rplus Rminus Ropp Rdiv Rinv IZR pow]; try reflexivity; field [U Hs].
Qed.
Print Assumptions C33_complex.
Lemma conj_par_real V : real_par V -> conj_par V = V.
Proof.
  destruct V as [[? ?] [? ?] [? ?] [? ?] [? ?] [? ?] [? ?] [? ?] [? ?] [? ?]]. unfold real_par, conj_par. cbn [v_sss v_sps v_sds v_pps v_ppp v_pds v_pdp v_dds v_ddp v_ddd fst snd].
  intros (-> & -> & -> & -> & -> & -> & -> & -> & -> & ->). unfold Cconj. cbn [fst snd]. rewrite !Ropp_0. reflexivity.
Qed.
(** All 81 pairs of labels, all directions, all real parameters. *)
Theorem C33_tensor : forall (r : v3) (i j : string) (oi oj : orb) (V : sk_par),
  orbital i = Some oi -> orbital j = Some oj -> / 10 ^ 15 < sqrt (dot3 r r) -> real_par V ->
  sk_eval r i j V = Ok (two_centre oi oj (unit3 r) V).
Proof. intros r i j oi oj V Hi Hj Hbig HV. rewrite (C33_complex r i j oi oj V Hi Hj Hbig). rewrite (conj_par_real V HV). destruct (reversed i j); reflexivity. Qed.
Print Assumptions C33_tensor.

(** Other labels are rejected, and so are vectors that are too short, except
    between two s orbitals. *)
Lemma not_orbital l : orbital l = None -> (l =? "s") = false /\ is_p l = false /\ is_d l = false.
Proof.
  unfold orbital, is_p, is_d. cbv zeta. repeat match goal with |- context [l =? ?s] => destruct (l =? s) eqn:?; [discriminate|] end. intros _. repeat split.
Qed.
Theorem C33_illegal : forall r i j V, orbital i = None \/ orbital j = None -> sk_eval r i j V = Err ValueError.
Proof.
  intros r i j V H. unfold sk_eval, ps, ds, dp, dd, sp, sd, pp, pd, check_p, check_d, conj_res.
  destruct H as [H|H]; apply not_orbital in H; destruct H as (H1 & H2 & H3); rewrite ?H1, ?H2, ?H3; cbn [bind].
  - destruct (j =? "s"); [reflexivity|]. destruct (is_p j) eqn:Ej; cbn [bind]; reflexivity.
  - destruct (i =? "s"); [reflexivity|]. destruct (is_p i) eqn:Ei; cbn [bind]; [reflexivity|]. destruct (is_d i); reflexivity.
Qed.
Print Assumptions C33_illegal.
Theorem C33_short : forall r i j oi oj V, orbital i = Some oi -> orbital j = Some oj -> sqrt (dot3 r r) <= / 10 ^ 15 ->
  sk_eval r i j V = if (i =? "s") && (j =? "s") then Ok (v_sss V) else Err ValueError.
Proof.
  intros [[x y] z] i j oi oj V Hi Hj Hsmall. pose proof (orbital_label _ _ Hi) as Li. pose proof (orbital_label _ _ Hj) as Lj. clear Hi Hj.
  assert (D : forall p q r, p * p + q * q + r * r = x * x + y * y + z * z -> eval_dir_cos (p, q, r) = Err ValueError).
  { intros p q r H. unfold eval_dir_cos. replace (norm3 (p, q, r)) with (sqrt (dot3 (x, y, z) (x, y, z))) by (unfold norm3, dot3, sum3; cbn [comp fst snd]; f_equal; rewrite H; ring). rewrite (proj2 (Rleb_spec _ _) Hsmall). reflexivity. }
  unfold labels in Li, Lj. cbn [In] in Li, Lj.
  repeat (destruct Li as [<-|Li]); [..|destruct Li]; (repeat (destruct Lj as [<-|Lj]); [..|destruct Lj]).
  all: unfold sk_eval, ps, ds, dp, dd, conj_res, neg3; cbn -[Rmult Rplus Rminus Ropp Rdiv Rinv IZR pow sqrt eval_dir_cos sc Cadd Csub sqrt3 half_sqrt3]; rewrite ?D by (cbn [comp fst snd]; ring); reflexivity.
Qed.
Print Assumptions C33_short.

(** The specification is what it should be: rotating both orbitals and the
    direction changes nothing ... *)
Lemma sum3_ext f g : (forall i, (i < 3)%nat -> f i = g i) -> sum3 f = sum3 g.
Proof. intros H. unfold sum3. rewrite !H by lia. reflexivity. Qed.
Section Rot.
  Context (Q : nat -> nat -> R) (HQ : orthogonal Q).
  Lemma gram : let g i j := sum3 (fun k => Q k i * Q k j) in
    g 0%nat 0%nat = 1 /\ g 1%nat 1%nat = 1 /\ g 2%nat 2%nat = 1 /\ g 0%nat 1%nat = 0 /\ g 0%nat 2%nat = 0 /\ g 1%nat 2%nat = 0.
  Proof using HQ. cbv zeta. repeat split; rewrite HQ by lia; reflexivity. Qed.
  Lemma dot_rot u v : dot3 (rot Q u) (rot Q v) = dot3 u v.
  Proof using HQ.
    destruct gram as (G0 & G1 & G2 & G3 & G4 & G5). destruct u as [[a b] c], v as [[a' b'] c'].
    transitivity (a * a' * sum3 (fun k => Q k 0%nat * Q k 0%nat) + b * b' * sum3 (fun k => Q k 1%nat * Q k 1%nat) + c * c' * sum3 (fun k => Q k 2%nat * Q k 2%nat)
      + (a * b' + b * a') * sum3 (fun k => Q k 0%nat * Q k 1%nat) + (a * c' + c * a') * sum3 (fun k => Q k 0%nat * Q k 2%nat) + (b * c' + c * b') * sum3 (fun k => Q k 1%nat * Q k 2%nat)).
    - unfold rot, dot3, app3, sum3. cbn [comp fst snd]. ring.
    - rewrite G0, G1, G2, G3, G4, G5. unfold dot3, sum3. cbn [comp fst snd]. ring.
  Qed.
  Lemma comp_rot u i : (i < 3)%nat -> comp (rot Q u) i = sum3 (fun j => Q i j * comp u j).
  Proof using Type. clear. intros Hi. destruct i as [|[|[|i]]]; [reflexivity..|lia]. Qed.
  (** Q^T Q u = u *)
  Lemma back u l : (l < 3)%nat -> sum3 (fun j => Q j l * comp (rot Q u) j) = comp u l.
  Proof using HQ.
    intros Hl. destruct gram as (G0 & G1 & G2 & G3 & G4 & G5). destruct u as [[a b] c]. unfold rot, app3. unfold sum3 in *. cbn [comp fst snd].
    destruct l as [|[|[|l]]]; [| | |lia]; cbn [comp fst snd].
    - transitivity (a * (Q 0%nat 0%nat * Q 0%nat 0%nat + Q 1%nat 0%nat * Q 1%nat 0%nat + Q 2%nat 0%nat * Q 2%nat 0%nat) + b * (Q 0%nat 0%nat * Q 0%nat 1%nat + Q 1%nat 0%nat * Q 1%nat 1%nat + Q 2%nat 0%nat * Q 2%nat 1%nat) + c * (Q 0%nat 0%nat * Q 0%nat 2%nat + Q 1%nat 0%nat * Q 1%nat 2%nat + Q 2%nat 0%nat * Q 2%nat 2%nat)); [ring|]. rewrite G0, G3, G4. ring.
    - transitivity (a * (Q 0%nat 0%nat * Q 0%nat 1%nat + Q 1%nat 0%nat * Q 1%nat 1%nat + Q 2%nat 0%nat * Q 2%nat 1%nat) + b * (Q 0%nat 1%nat * Q 0%nat 1%nat + Q 1%nat 1%nat * Q 1%nat 1%nat + Q 2%nat 1%nat * Q 2%nat 1%nat) + c * (Q 0%nat 1%nat * Q 0%nat 2%nat + Q 1%nat 1%nat * Q 1%nat 2%nat + Q 2%nat 1%nat * Q 2%nat 2%nat)); [ring|]. rewrite G1, G3, G5. ring.
    - transitivity (a * (Q 0%nat 0%nat * Q 0%nat 2%nat + Q 1%nat 0%nat * Q 1%nat 2%nat + Q 2%nat 0%nat * Q 2%nat 2%nat) + b * (Q 0%nat 1%nat * Q 0%nat 2%nat + Q 1%nat 1%nat * Q 1%nat 2%nat + Q 2%nat 1%nat * Q 2%nat 2%nat) + c * (Q 0%nat 2%nat * Q 0%nat 2%nat + Q 1%nat 2%nat * Q 1%nat 2%nat + Q 2%nat 2%nat * Q 2%nat 2%nat)); [ring|]. rewrite G2, G4, G5. ring.
  Qed.
  Definition conjug (D : nat -> nat -> R) : nat -> nat -> R := fun i j => sum3 (fun k => sum3 (fun l => Q i k * D k l * Q j l)).
  Lemma app_rot D u : app3 (conjug D) (rot Q u) = rot Q (app3 D u).
  Proof using HQ.
    assert (H : forall i, sum3 (fun j => conjug D i j * comp (rot Q u) j) = sum3 (fun k => Q i k * sum3 (fun l => D k l * comp u l))).
    { intros i. transitivity (sum3 (fun k => Q i k * sum3 (fun l => D k l * sum3 (fun j => Q j l * comp (rot Q u) j)))).
      - unfold conjug. unfold sum3. ring.
      - apply sum3_ext. intros k _. f_equal. apply sum3_ext. intros l Hl. f_equal. apply back, Hl. }
    unfold rot at 2. unfold app3. rewrite !H. unfold sum3. cbn [comp fst snd]. reflexivity.
  Qed.
  Lemma quad_rot D u : quad (conjug D) (rot Q u) = quad D u.
  Proof using HQ. unfold quad. rewrite app_rot, dot_rot. reflexivity. Qed.
  Lemma tr_rot D D' : tr2 (conjug D) (conjug D') = tr2 D D'.
  Proof using HQ.
    (* tr (Q D Q^T Q D' Q^T) = sum_kl D k l (Q^T Q D' Q^T Q) l k *)
    transitivity (sum3 (fun k => sum3 (fun l => D k l * sum3 (fun a => sum3 (fun b => sum3 (fun j => Q j l * Q j a) * D' a b * sum3 (fun i => Q i b * Q i k)))))).
    - unfold tr2, conjug, sum3. ring.
    - unfold tr2. apply sum3_ext. intros k Hk. apply sum3_ext. intros l Hl. f_equal.
      transitivity (sum3 (fun a => sum3 (fun b => (if Nat.eqb l a then 1 else 0) * D' a b * (if Nat.eqb b k then 1 else 0)))).
      + apply sum3_ext. intros a Ha. apply sum3_ext. intros b Hb. rewrite !HQ by assumption. reflexivity.
      + destruct k as [|[|[|k]]]; [| | |lia]; (destruct l as [|[|[|l]]]; [| | |lia]); unfold sum3; cbn [Nat.eqb]; ring.
  Qed.
End Rot.
Theorem C33_rotation : forall Q o o' u V, orthogonal Q -> two_centre (rot_orb Q o) (rot_orb Q o') (rot Q u) V = two_centre o o' u V.
Proof.
  intros Q o o' u V HQ. destruct o as [|e|D], o' as [|e'|D']; cbn [rot_orb two_centre]; try fold (conjug Q D); try fold (conjug Q D'); rewrite ?(app_rot Q HQ), ?(quad_rot Q HQ), ?(dot_rot Q HQ), ?(tr_rot Q HQ); reflexivity.
Qed.
Print Assumptions C33_rotation.
(** ... and along z an integral is one parameter (V_(l l' m), negative for an
    odd orbital before an even one) or zero: *)
Definition channel (l : string) : nat := if (l =? "px") || (l =? "dzx") then 1 else if (l =? "py") || (l =? "dyz") then 2 else if l =? "dxy" then 3 else if l =? "dx2-y2" then 4 else 0.
Definition bond (li lj m : nat) (V : sk_par) : Cplx :=
  match li, lj, m with
  | 0, 0, 0 => v_sss V
  | 0, 1, 0 => v_sps V | 1, 0, 0 => sc (-1) (v_sps V)
  | 0, 2, 0 | 2, 0, 0 => v_sds V
  | 1, 1, 0 => v_pps V | 1, 1, _ => v_ppp V
  | 1, 2, 0 => v_pds V | 2, 1, 0 => sc (-1) (v_pds V)
  | 1, 2, _ => v_pdp V | 2, 1, _ => sc (-1) (v_pdp V)
  | 2, 2, 0 => v_dds V | 2, 2, 1 => v_ddp V | 2, 2, 2 => v_ddp V | _, _, _ => v_ddd V
  end%nat.
Theorem C33_axis : forall (z : R) (i j : string) (V : sk_par), / 10 ^ 15 < z -> In i labels -> In j labels -> real_par V ->
  sk_eval (0, 0, z) i j V = Ok (if (channel i =? channel j)%nat then bond (rank i) (rank j) (channel i) V else Cre 0).
Proof.
  intros z i j V Hz Li Lj HV. assert (Hp : 0 < z). { apply Rlt_trans with (/ 10 ^ 15); [|exact Hz]. apply Rinv_0_lt_compat, pow_lt. lra. }
  assert (Hn : sqrt (dot3 (0, 0, z) (0, 0, z)) = z). { unfold dot3, sum3. cbn [comp fst snd]. replace (0 * 0 + 0 * 0 + z * z) with (z * z) by ring. apply sqrt_square. lra. }
  assert (Hu : unit3 (0, 0, z) = (0, 0, 1)). { unfold unit3. rewrite Hn. cbn [comp fst snd]. apply f_equal2; [apply f_equal2|]; field; lra. }
  assert (Ho : forall l, In l labels -> exists o, orbital l = Some o) by (intros l Hl; unfold labels in Hl; cbn [In] in Hl; repeat (destruct Hl as [<-|Hl]; [cbn; eexists; reflexivity|]); destruct Hl).
  destruct (Ho i Li) as (oi & Hi), (Ho j Lj) as (oj & Hj). rewrite (C33_tensor _ _ _ _ _ _ Hi Hj) by (rewrite ?Hn; assumption). rewrite Hu. apply f_equal. clear Ho Hu Hn Hz Hp z HV.
  pose proof two_over_sqrt3 as T3. assert (Hs : sqrt 3 * sqrt 3 = 3) by (apply sqrt_sqrt; lra).
  destruct V as [[v1r v1i] [v2r v2i] [v3r v3i] [v4r v4i] [v5r v5i] [v6r v6i] [v7r v7i] [v8r v8i] [v9r v9i] [v0r v0i]].
  unfold labels in Li, Lj. cbn [In] in Li, Lj.
  repeat (destruct Li as [<-|Li]); [..|destruct Li]; cbn in Hi; injection Hi as <-; (repeat (destruct Lj as [<-|Lj]); [..|destruct Lj]; cbn in Hj; injection Hj as <-).
  all: unfold two_centre; cbn -[Rmult Rplus Rminus Ropp Rdiv Rinv IZR sqrt]; rewrite ?T3; clear T3; revert Hs; generalize (sqrt 3); intros s3 Hs; unfold tr2, quad, dot3, app3, sum3.
  all: apply Ceq; cbn -[Rmult Rplus Rminus Ropp Rdiv Rinv IZR pow]; try reflexivity; field [Hs].
Qed.
Print Assumptions C33_axis.

(** ** C34 *)
Lemma neg_neg r : neg3 (neg3 r) = r.
Proof. destruct r as [[x y] z]. unfold neg3. cbn [comp fst snd]. rewrite !Ropp_involutive. reflexivity. Qed.
Lemma conj_conj_res t : conj_res (conj_res t) = t.
Proof. destruct t as [[a b]|e]; [|reflexivity]. unfold conj_res, Cconj. cbn [bind fst snd]. rewrite Ropp_involutive. reflexivity. Qed.
Lemma two_centre_sym o o' u V : two_centre o' o (- comp u 0, - comp u 1, - comp u 2) V = two_centre o o' u V.
Proof.
  destruct u as [[a b] c]. destruct o as [|[[e1 e2] e3]|D], o' as [|[[f1 f2] f3]|D']; cbn [two_centre]; unfold tr2, quad, dot3, app3, sum3; cbn [comp fst snd]; try reflexivity; unfold sc;
    apply Ceq; unfold Cadd, Cmul; cbn [fst snd Cre]; ring.
Qed.
Lemma two_centre_conj o o' u V : Cconj (two_centre o o' u V) = two_centre o o' u (conj_par V).
Proof.
  assert (A : forall p q, Cconj (Cadd p q) = Cadd (Cconj p) (Cconj q)) by (intros; apply Ceq; cbn; ring). assert (B : forall a v, Cconj (sc a v) = sc a (Cconj v)) by (intros; apply Ceq; cbn; ring).
  destruct o, o'; cbn [two_centre]; rewrite ?A, ?B; reflexivity.
Qed.
(** Exchanging the two orbitals and reversing the vector gives the complex
    conjugate, for real parameters, any labels (also illegal ones: both calls
    fail in the same way) and any vector. *)
Theorem C34_hermitian : forall r i j V, real_par V -> sk_eval r i j V = conj_res (sk_eval (neg3 r) j i V).
Proof.
  intros r i j V HV. destruct (orbital i) as [oi|] eqn:Hi; [|rewrite !C33_illegal by auto; reflexivity]. destruct (orbital j) as [oj|] eqn:Hj; [|rewrite !C33_illegal by auto; reflexivity].
  assert (Hn : dot3 (neg3 r) (neg3 r) = dot3 r r) by (destruct r as [[x y] z]; unfold dot3, sum3, neg3; cbn [comp fst snd]; ring).
  destruct (Rlt_le_dec (/ 10 ^ 15) (sqrt (dot3 r r))) as [Hb|Hb].
  - rewrite (C33_tensor _ _ _ _ _ _ Hi Hj Hb HV), (C33_tensor _ _ _ _ _ _ Hj Hi) by (rewrite ?Hn; assumption). unfold conj_res. cbn [bind]. apply f_equal. rewrite two_centre_conj, (conj_par_real V HV).
    rewrite <- (two_centre_sym oi oj). f_equal. unfold unit3. rewrite Hn. destruct r as [[x y] z]. cbn [comp fst snd neg3]. apply f_equal2; [apply f_equal2|]; unfold Rdiv; ring.
  - rewrite (C33_short _ _ _ _ _ _ Hi Hj Hb), (C33_short _ _ _ _ _ _ Hj Hi) by (rewrite Hn; exact Hb). rewrite andb_comm. destruct ((j =? "s") && (i =? "s")); [|reflexivity]. unfold conj_res. cbn [bind]. f_equal. destruct HV as (H & _). apply Ceq; cbn; [reflexivity|rewrite H; ring].
Qed.
Print Assumptions C34_hermitian.
(** With complex parameters this holds between orbitals of different angular
    momentum and between different d orbitals ... *)
Theorem C34_complex : forall r i j V, rank i <> rank j \/ (rank i = 2%nat /\ rank j = 2%nat /\ i <> j) -> sk_eval r i j V = conj_res (sk_eval (neg3 r) j i V).
Proof.
  intros r i j V H. destruct (orbital i) as [oi|] eqn:Hi; [|rewrite !C33_illegal by auto; reflexivity]. destruct (orbital j) as [oj|] eqn:Hj; [|rewrite !C33_illegal by auto; reflexivity].
  apply orbital_label in Hi, Hj. unfold labels in Hi, Hj. cbn [In] in Hi, Hj.
  repeat (destruct Hi as [<-|Hi]); [..|destruct Hi]; (repeat (destruct Hj as [<-|Hj]); [..|destruct Hj]).
  all: first [exfalso; revert H; cbn; clear; intuition congruence | clear H; unfold sk_eval; cbn [String.eqb Ascii.eqb Bool.eqb is_p Datatypes.orb andb]; unfold ps, ds, dp, dd, check_d; rewrite ?neg_neg, ?conj_conj_res; cbn [String.eqb Ascii.eqb Bool.eqb is_p is_d Datatypes.orb andb bind d_index Nat.ltb Nat.leb]; rewrite ?neg_neg, ?conj_conj_res; reflexivity].
Qed.
Print Assumptions C34_complex.
(** ... but not between two p orbitals (or for equal labels): the code takes the
    same expression in both directions. *)
Theorem C34_complex_refuted : exists r V, sk_eval r "px" "py" V <> conj_res (sk_eval (neg3 r) "py" "px" V).
Proof.
  set (V := {| v_sss := Cre 0; v_sps := Cre 0; v_sds := Cre 0; v_pps := (0, 1); v_ppp := Cre 0; v_pds := Cre 0; v_pdp := Cre 0; v_dds := Cre 0; v_ddp := Cre 0; v_ddd := Cre 0 |}).
  exists (3, 4, 0), V. intros H.
  assert (Hn : sqrt (dot3 (3, 4, 0) (3, 4, 0)) = 5). { unfold dot3, sum3. cbn [comp fst snd]. replace (3 * 3 + 4 * 4 + 0 * 0) with (5 * 5) by ring. apply sqrt_square. lra. }
  assert (Hs : / 10 ^ 15 < 5). { apply Rlt_trans with 1; [|lra]. rewrite <- Rinv_1. apply Rinv_lt_contravar; [rewrite Rmult_1_l; apply pow_lt; lra|]. apply Rlt_pow_R1; [lra|lia]. }
  assert (Hn' : sqrt (dot3 (neg3 (3, 4, 0)) (neg3 (3, 4, 0))) = 5). { rewrite <- Hn. unfold neg3, dot3, sum3. cbn [comp fst snd]. f_equal. ring. }
  rewrite (C33_complex (3, 4, 0) "px" "py" (OP (1, 0, 0)) (OP (0, 1, 0))) in H by (reflexivity || (rewrite Hn; exact Hs)).
  rewrite (C33_complex (neg3 (3, 4, 0)) "py" "px" (OP (0, 1, 0)) (OP (1, 0, 0))) in H by (reflexivity || (rewrite Hn'; exact Hs)).
  unfold conj_res in H. cbn [bind] in H. apply (f_equal (fun t => match t with Ok c => snd c | Err _ => 0 end)) in H. cbn -[Rmult Rplus Rminus Ropp Rdiv Rinv IZR sqrt dot3] in H. unfold unit3 in H. rewrite Hn, Hn' in H. unfold dot3, sum3 in H. cbn -[Rmult Rplus Rminus Ropp Rdiv Rinv IZR sqrt] in H. lra.
Qed.
Print Assumptions C34_complex_refuted.

(** Examples. *)
Definition V_ex : sk_par := {| v_sss := Cre 1; v_sps := Cre 2; v_sds := Cre 3; v_pps := Cre 4; v_ppp := Cre (-1); v_pds := Cre 5; v_pdp := Cre 6; v_dds := Cre 7; v_ddp := Cre 8; v_ddd := Cre 9 |}.
Lemma V_ex_real : real_par V_ex.
Proof. repeat split. Qed.
Lemma norm_345 : sqrt (dot3 (3, 4, 0) (3, 4, 0)) = 5.
Proof. unfold dot3, sum3. cbn [comp fst snd]. replace (3 * 3 + 4 * 4 + 0 * 0) with (5 * 5) by ring. apply sqrt_square. lra. Qed.
Lemma five_long : / 10 ^ 15 < 5.
Proof. apply Rlt_trans with 1; [|lra]. rewrite <- Rinv_1. apply Rinv_lt_contravar; [rewrite Rmult_1_l; apply pow_lt; lra|]. apply Rlt_pow_R1; [lra|lia]. Qed.
Example C33_tensor_ex : sk_eval (3, 4, 0) "px" "py" V_ex = Ok (Cre (12 / 25 * (4 - - 1))).
Proof.
  rewrite (C33_tensor (3, 4, 0) "px" "py" (OP (1, 0, 0)) (OP (0, 1, 0)) V_ex) by (reflexivity || apply V_ex_real || (rewrite norm_345; exact five_long)).
  apply f_equal. unfold unit3. rewrite norm_345. unfold two_centre, dot3, sum3. apply Ceq; cbn -[Rmult Rplus Rminus Ropp Rdiv Rinv IZR]; field.
Qed.
Example C33_short_ex : sqrt (dot3 (0, 0, 0) (0, 0, 0)) <= / 10 ^ 15 /\ orbital "dxy" <> None /\ orbital "f" = None.
Proof.
  repeat split; [|discriminate]. unfold dot3, sum3. cbn [comp fst snd]. replace (0 * 0 + 0 * 0 + 0 * 0) with 0 by ring. rewrite sqrt_0. left. apply Rinv_0_lt_compat, pow_lt. lra.
Qed.
(** A rotation that is not the identity: x -> y -> z -> x. *)
Example C33_rotation_ex : orthogonal (fun i j => if (i =? (j + 1) mod 3)%nat then 1 else 0).
Proof. intros i j Hi Hj. destruct i as [|[|[|i]]]; [| | |lia]; (destruct j as [|[|[|j]]]; [| | |lia]); unfold sum3; cbn; ring. Qed.
Example C34_hermitian_ex : sk_eval (-3, -4, 0) "py" "px" V_ex = Ok (Cre (12 / 25 * (4 - - 1))).
Proof.
  pose proof (C34_hermitian (3, 4, 0) "px" "py" V_ex V_ex_real) as H. rewrite C33_tensor_ex in H. unfold neg3 in H. cbn [comp fst snd] in H. replace (-0) with 0 in H by ring.
  change (-3) with (- (3)). change (-4) with (- (4)). destruct (sk_eval (- (3), - (4), 0) "py" "px" V_ex) as [c|e]; [|discriminate]. unfold conj_res in H. cbn [bind] in H.
  assert (H1 : Cre (12 / 25 * (4 - - 1)) = Cconj c) by (apply (f_equal (fun t => match t with Ok g => g | Err _ => Cre 0 end)) in H; exact H).
  apply f_equal. replace c with (Cconj (Cconj c)) by (apply Ceq; cbn; ring). rewrite <- H1. apply Ceq; cbn; ring.
Qed.
