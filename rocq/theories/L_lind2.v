(** Proofs about the kernels of the Lindhard solver. *)
From Verif Require Import Prelude Vec Cx M_super M_sample M_hop M_pc M_sync M_build M_bloch M_par M_lat M_lind
  S_lat S_par S_lind L_base L_super L_sample L_samp2 L_csr L_par L_par2 L_gersh L_lat L_lat2 L_lind.
From Coq Require Import Reals Permutation Lra.
Local Open Scope Z_scope.

Definition inr (no : nat) (j : Z) : bool := (0 <=? j) && (j <? Z.of_nat no).
Definition ins (no : nat) (jl : Z * Z) : bool := inr no (fst jl) && inr no (snd jl).
Lemma inr_of no j : (j < no)%nat -> inr no (Z.of_nat j) = true.
Proof. unfold inr. lia. Qed.
Lemma zmem_zrange no j : zmem j (zrange no) = inr no j.
Proof.
  apply Bool.eq_true_iff_eq. rewrite zmem_In, In_zrange. unfold inr. lia.
Qed.

(** ** Assignments *)
Lemma zmem_cons x y l : zmem x (y :: l) = (x =? y) || zmem x l.
Proof. reflexivity. Qed.
Lemma set_row {X} (g : Z -> Z -> bool) (f : Z -> Z -> X) i jj ls : forall (a : arr (Z * (Z * Z)) X) x j l,
  fold_left (fun a ll => if g jj ll then set3 a i jj ll (f jj ll) else a) ls a (x, (j, l)) =
  if (x =? i) && (j =? jj) && zmem l ls && g jj l then f jj l else a (x, (j, l)).
Proof.
  induction ls as [|y ls IH]; intros a x j l; cbn [fold_left].
  - cbn. rewrite andb_false_r. reflexivity.
  - rewrite IH. rewrite zmem_cons.
    destruct ((x =? i) && (j =? jj)) eqn:H1; cbn [andb].
    + destruct (zmem l ls) eqn:H2; cbn [orb andb]; destruct (Z.eqb_spec l y) as [->|Hn]; cbn [orb andb].
      * destruct (g jj y) eqn:Hg; reflexivity.
      * destruct (g jj l); [reflexivity|]. destruct (g jj y); [|reflexivity]. unfold set3. cbn [fst snd]. replace (l =? y) with false by lia. rewrite andb_false_r. reflexivity.
      * destruct (g jj y) eqn:Hg; [|reflexivity]. unfold set3. cbn [fst snd]. rewrite H1, Z.eqb_refl. reflexivity.
      * destruct (g jj y); [|reflexivity]. unfold set3. cbn [fst snd]. replace (l =? y) with false by lia. rewrite andb_false_r. reflexivity.
    + destruct (g jj y); [|reflexivity]. unfold set3. cbn [fst snd]. rewrite H1. reflexivity.
Qed.
Lemma set_grid {X} (g : Z -> Z -> bool) (f : Z -> Z -> X) i ls js : forall (a : arr (Z * (Z * Z)) X) x j l,
  fold_left (fun a jj => fold_left (fun a ll => if g jj ll then set3 a i jj ll (f jj ll) else a) ls a) js a (x, (j, l)) =
  if (x =? i) && zmem j js && zmem l ls && g j l then f j l else a (x, (j, l)).
Proof.
  induction js as [|y js IH]; intros a x j l; cbn [fold_left].
  - cbn. rewrite andb_false_r. reflexivity.
  - rewrite IH, set_row. rewrite zmem_cons.
    destruct (x =? i); cbn [andb]; [|reflexivity]. destruct (zmem j js); cbn [orb andb].
    + rewrite orb_true_r. cbn [andb]. destruct (zmem l ls && g j l) eqn:H; [reflexivity|]. destruct (Z.eqb_spec j y) as [->|Hn]; cbn [andb]; [|reflexivity].
      rewrite H. reflexivity.
    + rewrite orb_false_r. destruct (Z.eqb_spec j y) as [->|Hn]; reflexivity.
Qed.
Lemma fold_pair' {A B X} (f : A -> X -> A) (g : B -> X -> B) l (w : A * B) :
  fold_left (fun s x => (f (fst s) x, g (snd s) x)) l w = (fold_left f l (fst w), fold_left g l (snd w)).
Proof. destruct w as [a b]. apply fold_pair. Qed.
Lemma fold_pair2 {A B X Y} (f : A -> X -> Y -> A) (g : B -> X -> Y -> B) l m : forall (w : A * B),
  fold_left (fun w x => fold_left (fun w y => (f (fst w) x y, g (snd w) x y)) m w) l w =
  (fold_left (fun a x => fold_left (fun a y => f a x y) m a) l (fst w), fold_left (fun b x => fold_left (fun b y => g b x y) m b) l (snd w)).
Proof.
  induction l as [|x l IH]; intros [a b]; cbn [fold_left fst snd]; [reflexivity|]. rewrite IH, (fold_pair (fun a y => f a x y) (fun b y => g b x y)). reflexivity.
Qed.

(** ** prod_dp *)
Local Open Scope R_scope.
Definition fsum (no : nat) (f : Z -> Cplx) : Cplx := fold_left (fun p b => Cadd p (f b)) (zrange no) (0, 0).
Definition dp_val (no : nat) (beta mu : R) (phase : Z -> Cplx) (ek : Z -> R) (sk : Z -> Z -> Cplx) (eq : Z -> R) (sq : Z -> Z -> Cplx) (jj ll : Z) : Cplx :=
  let prod := fsum no (fun ib => Cmul (Cmul (Cconj (sq ll ib)) (sk jj ib)) (phase ib)) in
  Cmul (Cmul prod (Cconj prod)) (Cre (occ beta mu (ek jj) - occ beta mu (eq ll))).
Lemma dp_rows_at no beta mu ph ik ek sk eq sq w x jl :
  fst (dp_rows no beta mu ph ik ek sk eq sq w) (x, jl) = (if (x =? ik)%Z && ins no jl then ek (fst jl) - eq (snd jl) else fst w (x, jl)) /\
  snd (dp_rows no beta mu ph ik ek sk eq sq w) (x, jl) = (if (x =? ik)%Z && ins no jl then dp_val no beta mu ph ek sk eq sq (fst jl) (snd jl) else snd w (x, jl)).
Proof.
  destruct jl as [j l]. cbn [fst snd]. unfold dp_rows.
  pose proof (fold_pair2 (fun (a : arr (Z * (Z * Z)) R) jj ll => if true then set3 a ik jj ll (ek jj - eq ll) else a)
                 (fun (b : arr (Z * (Z * Z)) Cplx) jj ll => if true then set3 b ik jj ll (dp_val no beta mu ph ek sk eq sq jj ll) else b) (zrange no) (zrange no) w) as H.
  cbv beta iota in H. unfold dp_val, fsum in H. rewrite H. clear H. cbn [fst snd]. unfold ins. cbn [fst snd]. rewrite <- !zmem_zrange. split.
  - rewrite (set_grid (fun _ _ => true) (fun jj ll => ek jj - eq ll)). rewrite andb_true_r, andb_assoc. reflexivity.
  - rewrite (set_grid (fun _ _ => true) (fun jj ll => dp_val no beta mu ph ek sk eq sq jj ll)). rewrite andb_true_r, andb_assoc. reflexivity.
Qed.
Lemma fold_rows {W X J} (p : W -> arr (Z * J) X) (step : W -> Z -> W) (val : Z -> J -> X) (inside : Z -> J -> bool) :
  (forall w ik x jl, p (step w ik) (x, jl) = if (x =? ik)%Z && inside ik jl then val ik jl else p w (x, jl)) ->
  forall ks w x jl, p (fold_left step ks w) (x, jl) = if zmem x ks && inside x jl then val x jl else p w (x, jl).
Proof.
  intros H. induction ks as [|k ks IH]; intros w x jl; cbn [fold_left]; [reflexivity|]. rewrite IH, H. rewrite zmem_cons.
  destruct (Z.eqb_spec x k) as [->|Hn]; cbn [orb andb]; [|reflexivity]. destruct (inside k jl); rewrite ?andb_false_r, ?andb_true_r; destruct (zmem k ks); reflexivity.
Qed.
Lemma loop_fold {S A B} (rdf : A -> res B) (step : S -> A -> B -> S) (v : A -> B) l : forall s, (forall x, In x l -> rdf x = Ok (v x)) ->
  loop (fun s x => bind (rdf x) (fun y => Ok (step s x y))) l s = Ok (fold_left (fun s x => step s x (v x)) l s).
Proof. intros s H. apply loop_pure, H. Qed.
Definition two_at (no : nat) (ks : list Z) (D : Z -> Z * Z -> R) (P : Z -> Z * Z -> Cplx) (w0 w : work) : Prop := forall x jl,
  fst w (x, jl) = (if zmem x ks && ins no jl then D x jl else fst w0 (x, jl)) /\
  snd w (x, jl) = (if zmem x ks && ins no jl then P x jl else snd w0 (x, jl)).
Lemma prod_dp_at no bands states kq beta mu q pos ks w0 (kqf : Z -> Z) : (forall k, In k ks -> rd kq k = Ok (kqf k)) ->
  exists w, prod_dp no bands states kq beta mu q pos ks w0 = Ok w /\
    two_at no ks (fun x jl => bands (x, fst jl) - bands (kqf x, snd jl))
      (fun x jl => dp_val no beta mu (phases q pos) (fun j => bands (x, j)) (fun j b => states (x, (j, b)))
         (fun j => bands (kqf x, j)) (fun j b => states (kqf x, (j, b))) (fst jl) (snd jl)) w0 w.
Proof.
  intros H. unfold prod_dp. rewrite (loop_fold (rd kq) (fun w ik ikqp => dp_rows no beta mu (phases q pos) ik (fun j => bands (ik, j)) (fun j b => states (ik, (j, b)))
          (fun l => bands (ikqp, l)) (fun l b => states (ikqp, (l, b))) w) kqf) by exact H.
  eexists. split; [reflexivity|]. intros x jl. split.
  - apply (fold_rows fst _ (fun x jl => bands (x, fst jl) - bands (kqf x, snd jl)) (fun _ => ins no)). intros w ik y jl'. apply dp_rows_at.
  - apply (fold_rows snd _ (fun x jl => dp_val no beta mu (phases q pos) (fun j => bands (x, j)) (fun j b => states (x, (j, b)))
         (fun j => bands (kqf x, j)) (fun j b => states (kqf x, (j, b))) (fst jl) (snd jl)) (fun _ => ins no)). intros w ik y jl'. apply dp_rows_at.
Qed.
Lemma prod_dp_arb_at no bands states bq sq beta mu q pos ks w0 :
  two_at no ks (fun x jl => bands (x, fst jl) - bq (x, snd jl))
      (fun x jl => dp_val no beta mu (phases q pos) (fun j => bands (x, j)) (fun j b => states (x, (j, b)))
         (fun j => bq (x, j)) (fun j b => sq (x, (j, b))) (fst jl) (snd jl)) w0 (prod_dp_arb no bands states bq sq beta mu q pos ks w0).
Proof.
  unfold prod_dp_arb. intros x jl. split.
  - apply (fold_rows fst _ (fun x jl => bands (x, fst jl) - bq (x, snd jl)) (fun _ => ins no)). intros w ik y jl'. apply dp_rows_at.
  - apply (fold_rows snd _ (fun x jl => dp_val no beta mu (phases q pos) (fun j => bands (x, j)) (fun j b => states (x, (j, b)))
         (fun j => bq (x, j)) (fun j b => sq (x, (j, b))) (fst jl) (snd jl)) (fun _ => ins no)). intros w ik y jl'. apply dp_rows_at.
Qed.

(** ** Sums *)
Add Ring Cr : (s_ring Cplx CLaws).
Lemma fold_cadd {A} (f : A -> Cplx) l : forall s, fold_left (fun s x => Cadd s (f x)) l s = Cadd s (esum (map f l)).
Proof.
  induction l as [|x l IH]; intros s; cbn [fold_left map]; [rewrite esum_nil; ceq; ring|]. rewrite IH, esum_cons. ceq; ring.
Qed.
Lemma fold_cadd0 {A} (f : A -> Cplx) l : fold_left (fun s x => Cadd s (f x)) l (0, 0) = esum (map f l).
Proof. rewrite fold_cadd. ceq; ring. Qed.
Lemma fold_ext {A X} (f g : A -> X -> A) l a : (forall a x, f a x = g a x) -> fold_left f l a = fold_left g l a.
Proof. intros H. apply fold_left_ext'. intros. apply H. Qed.
Lemma fsum_to no f : fsum no f = sum_to no (fun b => f (Z.of_nat b)).
Proof. unfold fsum. rewrite fold_cadd0. unfold sum_to, zrange. rewrite map_map. reflexivity. Qed.
Lemma sum_to_ext n f g : (forall i, (i < n)%nat -> f i = g i) -> sum_to n f = sum_to n g.
Proof. intros H. unfold sum_to. f_equal. apply map_ext_in. intros i Hi. apply in_seq in Hi. apply H. lia. Qed.
Lemma sum_zrange no (f : Z -> Cplx) : esum (map f (zrange no)) = sum_to no (fun b => f (Z.of_nat b)).
Proof. unfold sum_to, zrange. rewrite map_map. reflexivity. Qed.
Lemma ksum_eq no w den ks : ksum no w den ks =
  esum (map (fun ik => sum_to no (fun j => sum_to no (fun l =>
    Cdiv (snd w (ik, (Z.of_nat j, Z.of_nat l))) (den (fst w (ik, (Z.of_nat j, Z.of_nat l))))))) ks).
Proof.
  unfold ksum. rewrite (fold_ext _ (fun s ik => Cadd s (esum (map (fun jj => esum (map (fun ll =>
     Cdiv (snd w (ik, (jj, ll))) (den (fst w (ik, (jj, ll))))) (zrange no))) (zrange no))))).
  - rewrite fold_cadd0. f_equal. apply map_ext. intros ik. rewrite sum_zrange. apply sum_to_ext. intros j _. apply sum_zrange.
  - intros s ik. rewrite (fold_ext _ (fun s jj => Cadd s (esum (map (fun ll => Cdiv (snd w (ik, (jj, ll))) (den (fst w (ik, (jj, ll))))) (zrange no))))); [apply fold_cadd|].
    intros s' jj. apply fold_cadd.
Qed.
Lemma esum_const {A} (c : Cplx) (l : list A) : esum (map (fun _ => c) l) = Cmul (Cre (IZR (Z.of_nat (length l)))) c.
Proof.
  induction l as [|x l IH]; cbn [map length]; [rewrite esum_nil; ceq; ring|]. rewrite esum_cons, IH, Nat2Z.inj_succ, succ_IZR. ceq; ring.
Qed.

(** The row of one q-point. *)
Lemma kernel_at no w omegas delta ks iq dp i iw :
  dyn_pol_kernel no w omegas delta ks iq dp (i, iw) =
  if (i =? iq)%Z && inr (length omegas) iw
  then ksum no w (fun e => Cadd (Cre (e + nth (Z.to_nat iw) omegas 0)) (Cmul Ci (Cre delta))) ks else dp (i, iw).
Proof.
  unfold dyn_pol_kernel.
  assert (H : forall om k (dp : arr (Z * Z) Cplx), fold_left (fun dp (x : Z * R) =>
    let s := ksum no w (fun e => Cadd (Cre (e + snd x)) (Cmul Ci (Cre delta))) ks in
    fun i => if ((fst i =? iq) && (snd i =? fst x))%Z then s else dp i) (combine (map (fun j => Z.of_nat (k + j)) (seq 0 (length om))) om) dp (i, iw) =
    if (i =? iq)%Z && ((Z.of_nat k <=? iw) && (iw <? Z.of_nat (k + length om)))%Z
    then ksum no w (fun e => Cadd (Cre (e + nth (Z.to_nat iw - k) om 0)) (Cmul Ci (Cre delta))) ks else dp (i, iw)).
  { clear dp. induction om as [|o om IH]; intros k dp; cbn [length seq map combine fold_left].
    - replace ((Z.of_nat k <=? iw) && (iw <? Z.of_nat (k + 0)))%Z with false by lia. rewrite andb_false_r. reflexivity.
    - rewrite <- seq_shift, map_map. rewrite (map_ext _ (fun j => Z.of_nat (S k + j))) by (intros; f_equal; lia). rewrite IH. cbn [fst snd].
      destruct (Z.eqb_spec i iq) as [->|Hi]; cbn [andb]; [|reflexivity].
      destruct (Z.eqb_spec iw (Z.of_nat (k + 0))) as [->|Hw].
      + replace ((Z.of_nat (S k) <=? Z.of_nat (k + 0)) && (Z.of_nat (k + 0) <? Z.of_nat (S k + length om)))%Z with false by lia.
        replace ((Z.of_nat k <=? Z.of_nat (k + 0)) && (Z.of_nat (k + 0) <? Z.of_nat (k + S (length om))))%Z with true by lia.
        replace (Z.to_nat (Z.of_nat (k + 0)) - k)%nat with 0%nat by lia. reflexivity.
      + destruct ((Z.of_nat (S k) <=? iw) && (iw <? Z.of_nat (S k + length om)))%Z eqn:Hc.
        * replace ((Z.of_nat k <=? iw) && (iw <? Z.of_nat (k + S (length om))))%Z with true by lia.
          replace (Z.to_nat iw - k)%nat with (S (Z.to_nat iw - S k))%nat by lia. reflexivity.
        * replace ((Z.of_nat k <=? iw) && (iw <? Z.of_nat (k + S (length om))))%Z with false by lia. reflexivity. }
  refine (eq_trans (H omegas 0%nat dp) _). clear H. cbn [Nat.add]. unfold inr. rewrite Nat.sub_0_r. reflexivity.
Qed.
