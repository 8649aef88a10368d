(** Sparse products (C38) and Chebyshev propagation (C39). *)
From Coq Require Import Reals Permutation Sorted QArith Qcanon.
From Verif Require Import Prelude Vec Cx Qs M_hop M_pc M_inter M_index M_super M_bloch M_sample M_par M_prop S_pc S_reach S_sample S_comp S_bloch S_prop
  L_base L_super L_csr L_samp4 L_argsort L_prop L_prop2 P_sample.
Local Open Scope Z_scope.

(** Gaussian integers, for examples. *)
Definition G : Type := (Z * Z)%type.
#[global] Instance GScalar : Scalar G :=
  {| s0 := (0, 0); s1 := (1, 0); sadd := fun a b => (fst a + fst b, snd a + snd b);
     smul := fun a b => (fst a * fst b - snd a * snd b, fst a * snd b + snd a * fst b);
     ssub := fun a b => (fst a - fst b, snd a - snd b); sopp := fun a => (- fst a, - snd a); sZ := fun z => (z, 0) |}.
Lemma GLaws : ScalarLaws G.
Proof.
  constructor; [constructor|..]; cbn [s0 s1 sadd smul ssub sopp sZ GScalar]; intros; repeat match goal with x : G |- _ => destruct x end;
    cbn [fst snd]; try reflexivity; apply f_equal2; ring.
Qed.
Definition gconj (a : G) : G := (fst a, - snd a).
Definition gi : G := (0, 1).
Lemma GStar : StarLaws gconj.
Proof.
  constructor; cbn [s1 sadd smul GScalar]; unfold gconj; intros; repeat match goal with x : G |- _ => destruct x end; cbn [fst snd]; try reflexivity;
    apply f_equal2; ring.
Qed.

(** ** C38 *)
(** The four kernels on arrays that describe a matrix: the vector arguments
    hold x and y, the results hold H x, a H x, a H x + y, a H x + b y. *)
Theorem C38_kernels : forall (E : Type) (SE : Scalar E), ScalarLaws E ->
  forall (m : spm E) (n : nat) (x y : nat -> E) (xl yl : list E) (a b : E),
  csr_ok n (p_indptr m) (p_indices m) (p_values m) -> holds n x xl -> holds n y yl ->
  let H := cell (p_indptr m) (p_indices m) (p_values m) in
  (exists r, csr_mv m xl = Ok r /\ holds n (mv n H x) r) /\
  (exists r, amv a m xl = Ok r /\ holds n (fun i => smul a (mv n H x i)) r) /\
  (exists r, amxpy a m xl yl = Ok r /\ holds n (fun i => sadd (smul a (mv n H x i)) (y i)) r) /\
  (exists r, amxpby a m xl b yl = Ok r /\ holds n (fun i => sadd (smul a (mv n H x i)) (smul b (y i))) r).
Proof.
  intros E SE EL m n x y xl yl a b Hwf Hx Hy H. apply holds_eq in Hx, Hy. subst xl yl.
  split; [|split; [|split]]; eexists; (split; [|apply holds_tab]).
  - apply (csr_mv_tab EL m n Hwf).
  - apply (amv_tab EL m n Hwf).
  - apply (amxpy_tab EL m n Hwf).
  - apply (amxpby_tab EL m n Hwf).
Qed.
Print Assumptions C38_kernels.

(** A matrix with an empty row and a repeated column. *)
Definition spm1 : spm G := {| p_indptr := [0; 2; 2; 5]; p_indices := [0; 2; 0; 1; 1]; p_values := [(2, 0); (0, 1); (0, -1); (3, 0); (1, 1)] |}.
Example C38_kernels_example :
  csr_ok 3 (p_indptr spm1) (p_indices spm1) (p_values spm1) /\
  cell (p_indptr spm1) (p_indices spm1) (p_values spm1) 2 1 = (4, 1) /\
  csr_mv spm1 [(1, 0); (2, 0); (0, 3)] = Ok [(-1, 0); (0, 0); (8, 1)] /\
  amxpby (0, 1) spm1 [(1, 0); (2, 0); (0, 3)] (2, 0) [(1, 0); (1, 0); (1, 0)] = Ok [(2, -1); (2, 0); (1, 8)].
Proof.
  split; [|vm_compute; repeat split; reflexivity]. split; [reflexivity|]. split; [reflexivity|]. split.
  - intros i a b. do 4 (destruct i as [|i]; [cbn; intros [= <-] [= <-]; lia|]). cbn. destruct i; cbn; discriminate.
  - intros k Hk. cbn in Hk. intuition subst; lia.
Qed.

(** Arrays that a sample produces (fast or safe builder, sorted or not) are
    valid operands, and the product is the one with the Hamiltonian of
    build_ham_csr. *)
Theorem C38_sample_product :
  forall (E T X L : Type) (SE : Scalar E) (ST : Scalar T), ScalarLaws E -> ScalarLaws T ->
  forall (conj : E -> E) (inj cis : T -> E) (inv : T -> T) (cabs : E -> T) (rabs : T -> T) (leb : T -> T -> bool) (mag half : T)
         (argsort : list Z -> list Z) (zero : X) (frac_of : X * X * X -> vec T) (L0 : L),
  StarLaws conj -> (forall w, conj (inj w) = inj w) -> inj s0 = s0 -> sorts argsort ->
  forall (h : heap E T) (args : list (arg E)) s1 (os : list (mop T)) cutoff fast sort c, built conj zero frac_of L0 h args s1 ->
  let s := mrun conj inj cis inv cabs leb mag half h s1 os in
  snd (build_ham_dxy conj inj rabs leb h argsort cutoff fast sort s) = Ok c ->
  exists eng H, eng_of h s = Some eng /\ snd (build_ham_csr conj inj h s) = Ok H /\
  ((forall w, In w eng -> leb cutoff (rabs w) = true \/ w = s0) ->
   let n := length eng in let m := {| p_indptr := c_indptr c; p_indices := c_indices c; p_values := c_hopv c |} in
   herm conj n (fun i j => H (Z.of_nat i) (Z.of_nat j)) /\
   forall (a : E) (x : nat -> E) xl, holds n x xl ->
   exists r, amv a m xl = Ok r /\ holds n (fun i => smul a (mv n (fun i j => H (Z.of_nat i) (Z.of_nat j)) x i)) r).
Proof.
  intros E T X L SE ST EL TL conj inj cis inv cabs rabs leb mag half argsort zero frac_of L0 SL Hre Hi0 Hsort h args s1 os cutoff fast sort c Hb s Hc.
  pose proof (C24_builders E T X L SE ST EL TL conj inj cis inv cabs rabs leb mag half argsort zero frac_of L0 SL Hre Hi0 Hsort h args s1 os cutoff fast sort Hb) as HH.
  cbv zeta in HH. fold s in HH. rewrite Hc in HH. destruct (rows_of conj h s) as [[rows [|]]|].
  - destruct HH as (eng & c' & H & DX & DY & Heng & Hok & HH & _ & _ & Hn & _ & _ & (Hwf & L1 & L2 & L3) & _ & Hcol & _ & Hrep). injection Hok as <-.
    rewrite <- Hn in Hcol, Hrep.
    exists eng, H. split; [exact Heng|]. split; [exact HH|]. intros Hcut n m.
    destruct (arrays_ok n (c_indptr c) (c_indices c) (c_hopv c) (c_dx c) (c_dy c) Hwf L1 L2 L3 Hcol) as (Hcsr & Hcell).
    assert (Hrep' : forall i j, (i < n)%nat -> (j < n)%nat -> cell (c_indptr c) (c_indices c) (c_hopv c) i j = H (Z.of_nat i) (Z.of_nat j)).
    { intros i j Hi Hj. rewrite Hcell by exact Hi. destruct (Hrep (Z.of_nat i) (Z.of_nat j)) as (_ & _ & _ & _ & _ & Hr & _); [unfold n in *; lia..|]. apply Hr. exact Hcut. }
    split.
    + intros i j Hi Hj. rewrite <- !Hrep' by assumption. rewrite !Hcell by assumption. apply Hrep; unfold n in *; lia.
    + intros a x xl Hx. apply holds_eq in Hx. subst xl. eexists. split; [apply (amv_tab EL m n Hcsr)|].
      replace (tab n (fun i => smul a (mv n (mat_of m) x i))) with (tab n (fun i => smul a (mv n (fun i j => H (Z.of_nat i) (Z.of_nat j)) x i))); [apply holds_tab|].
      apply tab_ext. intros i Hi. f_equal. unfold mv. apply sum_ext. intros k Hk. f_equal. symmetry. apply Hrep'; assumption.
  - destruct HH as (HH & _). discriminate HH.
  - destruct HH as (x & HH & _). discriminate HH.
Qed.
Print Assumptions C38_sample_product.

Example C38_sample_example :
  built qid (qz 0) qv 0 heap1 args1 sample1 /\ sorts argsort0 /\
  exists c, snd (build_ham_dxy qid qid qabs qleb heap1 argsort0 cutoff1 true true (mrun1 sample1 [])) = Ok c /\
  length (c_indices c) = 21%nat /\
  exists eng, eng_of heap1 (mrun1 sample1 []) = Some eng /\ length eng = 9%nat /\ forall w, In w eng -> qleb cutoff1 (qabs w) = true \/ w = s0.
Proof.
  split; [exact built1|]. split; [exact argsort0_sorts|]. eexists. split; [vm_compute; reflexivity|]. split; [vm_compute; reflexivity|].
  eexists. split; [vm_compute; reflexivity|]. split; [reflexivity|].
  intros w Hw. cbn [In] in Hw. repeat destruct Hw as [<-|Hw]; try (left; vm_compute; reflexivity); try contradiction; right; apply Qc_is_canon; vm_compute; reflexivity.
Qed.

(** ** C39 *)
(** One time step forwards (factors (-i)^k) and backwards (i^k). *)
Theorem C39_timestep : forall (E : Type) (SE : Scalar E), ScalarLaws E -> forall (img : E), smul img img = sopp s1 ->
  forall (m : spm E) (n : nat) (bes : list E) (x : nat -> E) (xl : list E) (fwd : bool),
  csr_ok n (p_indptr m) (p_indices m) (p_values m) -> holds n x xl -> (3 <= length bes)%nat ->
  exists r, cheb_wf_timestep img m bes xl fwd = Ok r /\
            holds n (series n (cell (p_indptr m) (p_indices m) (p_values m)) (evol img fwd bes) (length bes) x) r.
Proof.
  intros E SE EL img Hi m n bes x xl fwd Hwf Hx Hl. apply holds_eq in Hx. subst xl.
  eexists. split; [apply (timestep_tab EL m n Hwf); assumption|apply holds_tab].
Qed.
Print Assumptions C39_timestep.

Theorem C39_fermi : forall (E : Type) (SE : Scalar E), ScalarLaws E ->
  forall (m : spm E) (n : nat) (coef : list E) (x : nat -> E) (xl : list E),
  csr_ok n (p_indptr m) (p_indices m) (p_values m) -> holds n x xl -> (3 <= length coef)%nat ->
  exists r, fermi_op m coef xl = Ok r /\
            holds n (series n (cell (p_indptr m) (p_indices m) (p_values m)) (fun k => nth k coef s0) (length coef) x) r.
Proof.
  intros E SE EL m n coef x xl Hwf Hx Hl. apply holds_eq in Hx. subst xl.
  eexists. split; [apply (fermi_tab EL m n Hwf); assumption|apply holds_tab].
Qed.
Print Assumptions C39_fermi.

(** A Hermitian matrix, and steps with an even and an odd number of terms. *)
Definition spm2 : spm G := {| p_indptr := [0; 2; 3]; p_indices := [0; 1; 0]; p_values := [(1, 0); (0, 1); (0, -1)] |}.
Lemma spm2_ok : csr_ok 2 (p_indptr spm2) (p_indices spm2) (p_values spm2).
Proof.
  split; [reflexivity|]. split; [reflexivity|]. split.
  - intros i a b. do 3 (destruct i as [|i]; [cbn; intros [= <-] [= <-]; lia|]). cbn. destruct i; cbn; discriminate.
  - intros k Hk. cbn in Hk. intuition subst; lia.
Qed.
Lemma spm2_herm : herm gconj 2 (cell (p_indptr spm2) (p_indices spm2) (p_values spm2)).
Proof. intros i j Hi Hj. destruct i as [|[|i]], j as [|[|j]]; try lia; reflexivity. Qed.
Example C39_example :
  csr_ok 2 (p_indptr spm2) (p_indices spm2) (p_values spm2) /\
  cheb_wf_timestep gi spm2 [(1, 0); (2, 0); (3, 0); (1, 0)] [(1, 0); (0, 0)] true = Ok [(-17, 14); (6, 12)] /\
  map (series 2 (cell (p_indptr spm2) (p_indices spm2) (p_values spm2)) (evol gi true [(1, 0); (2, 0); (3, 0); (1, 0)]) 4 (fun i => if Nat.eqb i 0 then (1, 0) else (0, 0))) [0; 1]%nat = [(-17, 14); (6, 12)] /\
  cheb_wf_timestep gi spm2 [(1, 0); (2, 0); (3, 0); (1, 0); (5, 0)] [(1, 0); (0, 0)] false = Ok [(233, -14); (-6, -148)] /\
  fermi_op spm2 [(1, 0); (2, 0); (3, 0); (1, 0); (5, 0)] [(1, 0); (0, 0)] = Ok [(146, 0); (0, -93)].
Proof. split; [exact spm2_ok|]. vm_compute. repeat split; reflexivity. Qed.

(** For a Hermitian matrix and real coefficients the step backwards is the
    adjoint of the step forwards, and the Fermi operator is its own. *)
Theorem C39_adjoint : forall (E : Type) (SE : Scalar E), ScalarLaws E -> forall (conj : E -> E), StarLaws conj ->
  forall (img : E), smul img img = sopp s1 -> conj img = sopp img ->
  forall (m : spm E) (n : nat) (bes : list E) (x y : nat -> E) (xl yl : list E) (fwd : bool),
  csr_ok n (p_indptr m) (p_indices m) (p_values m) -> herm conj n (cell (p_indptr m) (p_indices m) (p_values m)) ->
  holds n x xl -> holds n y yl -> (3 <= length bes)%nat -> (forall b, In b bes -> conj b = b) ->
  exists u v p q, cheb_wf_timestep img m bes yl fwd = Ok u /\ cheb_wf_timestep img m bes xl (negb fwd) = Ok v /\
    inner_prod conj xl u = inner_prod conj v yl /\
    fermi_op m bes yl = Ok p /\ fermi_op m bes xl = Ok q /\ inner_prod conj xl p = inner_prod conj q yl.
Proof.
  intros E SE EL conj SL img Hi Hci m n bes x y xl yl fwd Hwf Hh Hx Hy Hl Hb. apply holds_eq in Hx, Hy. subst xl yl.
  do 4 eexists. split; [apply (timestep_tab EL m n Hwf); assumption|]. split; [apply (timestep_tab EL m n Hwf); assumption|].
  split; [rewrite !inner_prod_tab; apply (series_adj EL conj SL); [exact Hh|]; intros k _; apply (evol_conj EL conj SL); assumption|].
  split; [apply (fermi_tab EL m n Hwf); assumption|]. split; [apply (fermi_tab EL m n Hwf); assumption|].
  rewrite !inner_prod_tab. apply (series_adj EL conj SL); [exact Hh|]. intros k Hk. apply Hb. apply nth_In. exact Hk.
Qed.
Print Assumptions C39_adjoint.
Example C39_adjoint_example :
  herm gconj 2 (cell (p_indptr spm2) (p_indices spm2) (p_values spm2)) /\ smul gi gi = sopp s1 /\ gconj gi = sopp gi /\
  bind (cheb_wf_timestep gi spm2 [(1, 0); (2, 0); (3, 0); (1, 0)] [(1, 0); (2, 1)] true) (fun u => Ok (inner_prod gconj [(1, 1); (0, 3)] u)) = Ok (36, 37) /\
  bind (cheb_wf_timestep gi spm2 [(1, 0); (2, 0); (3, 0); (1, 0)] [(1, 1); (0, 3)] false) (fun v => Ok (inner_prod gconj v [(1, 0); (2, 1)])) = Ok (36, 37).
Proof. split; [exact spm2_herm|]. vm_compute. repeat split; reflexivity. Qed.

(** Eigenvectors are multiplied by the scalar series. *)
Theorem C39_eigenvector : forall (E : Type) (SE : Scalar E), ScalarLaws E -> forall (img : E), smul img img = sopp s1 ->
  forall (m : spm E) (n : nat) (bes : list E) (x : nat -> E) (xl : list E) (fwd : bool) (a : E),
  csr_ok n (p_indptr m) (p_indices m) (p_values m) -> holds n x xl -> (3 <= length bes)%nat ->
  (forall i, (i < n)%nat -> mv n (cell (p_indptr m) (p_indices m) (p_values m)) x i = smul a (x i)) ->
  (exists r, cheb_wf_timestep img m bes xl fwd = Ok r /\
             holds n (fun i => smul (sum_to (length bes) (fun k => smul (evol img fwd bes k) (cheb_val a k))) (x i)) r) /\
  (exists r, fermi_op m bes xl = Ok r /\
             holds n (fun i => smul (sum_to (length bes) (fun k => smul (nth k bes s0) (cheb_val a k))) (x i)) r).
Proof.
  intros E SE EL img Hi m n bes x xl fwd a Hwf Hx Hl He. apply holds_eq in Hx. subst xl. split; eexists.
  - split; [apply (timestep_tab EL m n Hwf); assumption|].
    erewrite tab_ext; [apply holds_tab|]. intros i Hi'. apply (series_eig EL); assumption.
  - split; [apply (fermi_tab EL m n Hwf); assumption|].
    erewrite tab_ext; [apply holds_tab|]. intros i Hi'. apply (series_eig EL); assumption.
Qed.
Print Assumptions C39_eigenvector.
(** The eigenvector (1, 1) of [[0, 1], [1, 0]]. *)
Definition spm3 : spm G := {| p_indptr := [0; 1; 2]; p_indices := [1; 0]; p_values := [(1, 0); (1, 0)] |}.
Example C39_eigenvector_example :
  (forall i, (i < 2)%nat -> mv 2 (cell (p_indptr spm3) (p_indices spm3) (p_values spm3)) (fun _ => (1, 0)) i = smul (1, 0) (1, 0)) /\
  cheb_wf_timestep gi spm3 [(1, 0); (2, 0); (3, 0); (1, 0)] [(1, 0); (1, 0)] true = Ok [(-5, -2); (-5, -2)].
Proof. split; [|reflexivity]. intros [|[|i]] Hi; try lia; reflexivity. Qed.

(** With fewer than three coefficients the arrays are read out of bounds. *)
Theorem C39_short_refuted : exists (m : spm G) (bes xl : list G),
  csr_ok 2 (p_indptr m) (p_indices m) (p_values m) /\ length xl = 2%nat /\ length bes = 2%nat /\
  cheb_wf_timestep gi m bes xl true = Err IndexError /\ fermi_op m bes xl = Err IndexError.
Proof. exists spm2, [(1, 0); (1, 0)], [(1, 0); (0, 0)]. split; [exact spm2_ok|]. repeat split; reflexivity. Qed.
Print Assumptions C39_short_refuted.
