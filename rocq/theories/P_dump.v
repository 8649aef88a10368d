(** Property C98: a printed cell can be read back. *)
From Coq Require Import Reals Lra String Ascii.
From Verif Require Import Prelude Vec M_super M_hop M_pc M_w90 M_dump S_pc S_w90 S_dump L_hop L_pc2 L_w90 P_pc P_w90.
Local Open Scope Z_scope.
Local Open Scope list_scope.

(** ** Digits *)
Lemma chr_digit d : 0 <= d < 10 -> digit_char (chr d) d.
Proof.
  intros H. split; [exact H|]. unfold chr. rewrite nat_ascii_embedding by lia. lia.
Qed.
Lemma dec_numeral k : forall n, 0 <= n < 10 ^ Z.of_nat k -> numeral (dec k n) n k.
Proof.
  induction k as [|k IH]; intros n H.
  - replace n with 0 by (cbn in H; lia). constructor.
  - cbn [dec]. rewrite Nat2Z.inj_succ, Z.pow_succ_r in H by lia.
    rewrite (Z.div_mod n 10) at 3 by lia. apply num_snoc.
    + apply IH. split; [apply Z.div_pos; lia|apply Z.div_lt_upper_bound; lia].
    + apply chr_digit, Z.mod_pos_bound. lia.
Qed.
Lemma ndig_enough f : forall n, 0 <= n < 2 ^ Z.of_nat f -> n < 10 ^ Z.of_nat (ndig f n).
Proof.
  induction f as [|f IH]; intros n H; cbn [ndig].
  - cbn in *. lia.
  - destruct (Z.ltb_spec n 10); [cbn; lia|]. rewrite Nat2Z.inj_succ, Z.pow_succ_r in * by lia.
    assert (Hd : 0 <= n / 10 < 2 ^ Z.of_nat f) by (split; [apply Z.div_pos; lia|apply Z.div_lt_upper_bound; lia]).
    pose proof (IH _ Hd). pose proof (Z.div_mod n 10 ltac:(lia)). pose proof (Z.mod_pos_bound n 10 ltac:(lia)). lia.
Qed.
Lemma ndig_pos f n : exists k, ndig f n = S k.
Proof. destruct f; cbn [ndig]; [eauto|]. destruct (n <? 10); eauto. Qed.
Lemma ndig_least f : forall n k, n < 10 ^ Z.of_nat (S k) -> (ndig f n <= S k)%nat.
Proof.
  induction f as [|f IH]; intros n k H; cbn [ndig]; [lia|]. destruct (Z.ltb_spec n 10); [lia|].
  destruct k as [|k]; [cbn in H; lia|]. rewrite Nat2Z.inj_succ, Z.pow_succ_r in H by lia.
  enough (ndig f (n / 10) <= S k)%nat by lia. apply IH, Z.div_lt_upper_bound; lia.
Qed.
Lemma nat_numeral n : 0 <= n -> exists k, numeral (nat_repr n) n (S k) /\ (forall j, n < 10 ^ Z.of_nat (S j) -> (k <= j)%nat).
Proof.
  intros H. unfold nat_repr. set (f := S (Z.to_nat (Z.log2 n))). destruct (ndig_pos f n) as (k & Hk). exists k. rewrite <- Hk. split.
  - apply dec_numeral. split; [exact H|]. apply ndig_enough. split; [exact H|]. unfold f. rewrite Nat2Z.inj_succ, Z2Nat.id by apply Z.log2_nonneg.
    destruct (Z.eq_dec n 0) as [->|]; [cbn; lia|]. apply Z.log2_spec. lia.
  - intros j Hj. pose proof (ndig_least f n j Hj). lia.
Qed.
Lemma int_repr_text z : int_text (int_repr z) z.
Proof.
  unfold int_repr. destruct (Z.ltb_spec z 0).
  - destruct (nat_numeral (- z) ltac:(lia)) as (k & Hk & _). exists "-"%string, (-1), (nat_repr (- z)), (- z), k. unfold sign_text. split; [auto|]. split; [exact Hk|]. split; [reflexivity|lia].
  - destruct (nat_numeral z ltac:(lia)) as (k & Hk & _). exists ""%string, 1, (nat_repr z), z, k. unfold sign_text. split; [auto|]. split; [exact Hk|]. split; [reflexivity|lia].
Qed.
(** Every integer is printed as its decimal numeral, which Python's int reads
    back. *)
Theorem C98_int : forall z, int_text (int_repr z) z /\ int_of (int_repr z) = Ok z.
Proof. intros z. split; [apply int_repr_text|]. apply int_of_ok, int_repr_text. Qed.
Print Assumptions C98_int.

(** ** Columns *)
Lemma length_app a b : String.length (a +++ b) = (String.length a + String.length b)%nat.
Proof. induction a as [|c a IH]; [reflexivity|]. cbn. rewrite IH. reflexivity. Qed.
Lemma srep_blank n : blank (srep " " n).
Proof. induction n as [|n IH]; [constructor|]. constructor; [cbn; tauto|exact IH]. Qed.
Lemma srep_length n : String.length (srep " " n) = n.
Proof. induction n as [|n IH]; [reflexivity|]. cbn [srep append String.length]. rewrite IH. reflexivity. Qed.
Definition cols (ws : list string) : string := fold_right (fun w s => times " " (10 - Z.of_nat (String.length w)) +++ w +++ s) EmptyString ws.
Lemma cols_spell ws : Forall (fun w => word w /\ (String.length w < 10)%nat) ws -> spells (cols ws) ws.
Proof.
  assert (B : blank_char " ") by (cbn; tauto).
  induction 1 as [|w r [Hw Hl] Hr IH]; [constructor; constructor|]. cbn [cols fold_right]. fold (cols r). destruct Hr as [|w' r [Hw' Hl'] Hr].
  - cbn [cols fold_right]. rewrite append_nil. constructor; [apply srep_blank|exact Hw].
  - assert (Es : exists s, cols (w' :: r) = String " " s).
    { cbn [cols fold_right]. unfold times. destruct (Z.to_nat (10 - Z.of_nat (String.length w'))) as [|k] eqn:Q; [lia|]. cbn [srep]. eexists. reflexivity. }
    destruct Es as (s & Es). rewrite Es in *. constructor; [apply srep_blank|exact Hw|exact B|]. apply C92_words. apply C92_words in IH. rewrite <- IH. reflexivity.
Qed.

Section Cell.
  Context (round5 : R -> bool * Z) (Hr : rounds round5).

  Lemma fixed_number v : exists x, number_text (fixed5 round5 v) x /\ close x v.
  Proof.
    destruct (Hr v) as [H0 Hc]. unfold fixed5. destruct (round5 v) as [neg n]. cbn [fst snd] in *.
    exists ((if neg then -1 else 1) * (IZR n / 100000))%R. split; [|exact Hc].
    destruct (nat_numeral (n / 100000) ltac:(apply Z.div_pos; lia)) as (k & Hk & _).
    pose proof (dec_numeral 5 (n mod 100000) (Z.mod_pos_bound n 100000 ltac:(lia))) as Hd.
    exists (if neg then "-" else "")%string, (if neg then -1 else 1), (nat_repr (n / 100000)), (n / 100000), (S k), (String "." (dec 5 (n mod 100000))), (n mod 100000), 5%nat, ""%string, 0.
    split; [destruct neg; unfold sign_text; auto|]. split; [exact Hk|]. split; [right; eexists; split; [reflexivity|exact Hd]|]. split; [left; auto|]. split; [lia|].
    split; [rewrite append_nil; reflexivity|].
    rewrite powerRZ_O, Rmult_1_r. replace (IZR (if neg then -1 else 1)) with (if neg then -1 else 1)%R by (destruct neg; reflexivity). f_equal.
    rewrite (Z.div_mod n 100000) at 1 by lia. rewrite plus_IZR, mult_IZR. field.
  Qed.
  Lemma fixed_word v : word (fixed5 round5 v).
  Proof.
    destruct (Hr v) as [H0 _]. unfold fixed5. destruct (round5 v) as [neg n]. cbn [snd] in H0.
    destruct (nat_numeral (n / 100000) ltac:(apply Z.div_pos; lia)) as (k & Hk & _).
    pose proof (dec_numeral 5 (n mod 100000) (Z.mod_pos_bound n 100000 ltac:(lia))) as Hd.
    split; [destruct neg; [discriminate|]; destruct (numeral_head _ _ _ Hk) as (c & t & d & -> & _); discriminate|].
    assert (Hv : forall c, space c = false -> ~ blank_char c) by exact visible.
    apply word_app; [destruct neg; cbn [list_ascii_of_string]; [constructor; [apply Hv; reflexivity|]|]; constructor|]. apply word_app; [exact (numeral_visible _ _ _ Hk)|].
    constructor; [apply Hv; reflexivity|exact (numeral_visible _ _ _ Hd)].
  Qed.
  Lemma fixed_short v : narrow v -> (String.length (fixed5 round5 v) < 10)%nat.
  Proof.
    intros [Hlo Hhi]. destruct (Hr v) as [H0 Hc]. unfold fixed5. destruct (round5 v) as [neg n]. cbn [fst snd] in *. unfold close in Hc.
    destruct (nat_numeral (n / 100000) ltac:(apply Z.div_pos; lia)) as (k & Hk & Hm).
    pose proof (dec_numeral 5 (n mod 100000) (Z.mod_pos_bound n 100000 ltac:(lia))) as Hd.
    change (nat_repr (n / 100000) ++ "." ++ dec 5 (n mod 100000))%string with (nat_repr (n / 100000) +++ String "." (dec 5 (n mod 100000))).
    rewrite !length_app, (proj2 (numeral_chars _ _ _ Hk)). cbn [String.length]. rewrite (proj2 (numeral_chars _ _ _ Hd)).
    assert (Ha : (- / 200000 <= (if neg then -1 else 1) * (IZR n / 100000) - v <= / 200000)%R) by (revert Hc; unfold Rabs; destruct (Rcase_abs _); lra).
    destruct neg; cbn [String.length].
    - assert (n < 10000000) by (apply lt_IZR; lra). enough (k <= 1)%nat by lia. apply Hm. apply Z.div_lt_upper_bound; [lia|]. cbn. lia.
    - assert (n < 100000000) by (apply lt_IZR; lra). enough (k <= 2)%nat by lia. apply Hm. apply Z.div_lt_upper_bound; [lia|]. cbn. lia.
  Qed.
  Lemma row_read vs : Forall narrow vs -> numbers_line (cols (map (fixed5 round5) vs)) vs.
  Proof.
    intros H. split.
    { induction H as [|v vs Hv _ IH]; [reflexivity|]. cbn [map cols fold_right List.length]. fold (cols (map (fixed5 round5) vs)). pose proof (fixed_short v Hv).
      rewrite !length_app, IH. unfold times. rewrite srep_length. lia. }
    exists (map (fixed5 round5) vs).
    assert (Hx : exists xs, Forall2 number_text (map (fixed5 round5) vs) xs /\ Forall2 close xs vs).
    { clear H. induction vs as [|v vs (xs & H1 & H2)]; [exists []; split; constructor|]. destruct (fixed_number v) as (x & X1 & X2). exists (x :: xs). split; constructor; assumption. }
    destruct Hx as (xs & H1 & H2). exists xs. split; [|auto]. apply cols_spell. apply Forall_map. revert H. apply Forall_impl. intros v Hv. split; [apply fixed_word|apply fixed_short, Hv].
  Qed.
  Lemma vec_cols v : vec_line round5 v = cols (map (fixed5 round5) (let '(x, y, z) := v in [x; y; z])).
  Proof. destruct v as [[x y] z]. unfold vec_line, col. cbn [map cols fold_right]. rewrite append_nil, !append_assoc. reflexivity. Qed.
End Cell.

(** The numbers of a cell. *)
Definition cell_numbers {E L : Type} (lat : mat R) (org : vec R) (p : pc E R R L) : list R :=
  let v3 (v : vec R) := let '(x, y, z) := v in [x; y; z] in
  let '(a0, a1, a2) := lat in v3 org ++ v3 a0 ++ v3 a1 ++ v3 a2 ++ flat_map (fun o => v3 (position o) ++ [energy o]) (orbs p).

(** Whatever calls built the cell: the listing has one line per vector, orbital
    and hopping term; the numbers of a line are separated by blanks and equal
    those of the cell to five decimals; the terms are listed once, and the
    amplitudes of the model are those of the listed terms and their conjugates. *)
Theorem C98_cell :
  forall (E L : Type) (conj : E -> E) (show : E -> string) (zero : R) (round5 : R -> bool * Z),
  (forall e, conj (conj e) = e) -> rounds round5 ->
  forall os : list (op E R R L), hist_ok conj zero pc_empty os ->
  let p := fst (run conj zero pc_empty os) in
  forall (o0 o1 o2 x0 x1 x2 y0 y1 y2 z0 z1 z2 : R),
  let org := (o0, o1, o2) in let lat := ((x0, x1, x2), (y0, y1, y2), (z0, z1, z2)) in
  Forall narrow (cell_numbers lat org p) ->
  exists lo l0 l1 l2 ols hls terms,
    pc_print round5 show lat org p =
      ["Lattice origin (nm):"%string; lo; "Lattice vectors (nm):"%string; l0; l1; l2; "Orbitals:"%string] ++ ols ++ "Hopping terms:"%string :: hls /\
    numbers_line lo [o0; o1; o2] /\ numbers_line l0 [x0; x1; x2] /\ numbers_line l1 [y0; y1; y2] /\ numbers_line l2 [z0; z1; z2] /\
    Forall2 (fun o l => let '(x, y, z) := position o in numbers_line l [x; y; z; energy o]) (orbs p) ols /\
    Forall2 (fun t l => let '((a, b, c), (i, j), e) := t in term_line show l a b c i j e) terms hls /\
    NoDup (map fst terms) /\
    (forall r i j e, a_hop (abs conj p) r i j = Some e <-> In (r, (i, j), e) terms \/ exists e', In (opp r, (j, i), e') terms /\ e = conj e').
Proof.
  intros E L conj show zero round5 Hcc Hr os Hh p o0 o1 o2 x0 x1 x2 y0 y1 y2 z0 z1 z2 org lat Hn.
  destruct (C02_arrays E R R L conj zero Hcc os Hh) as (_ & _ & N1 & _ & N2). fold p in N1, N2. unfold ih_to_array in N1, N2. cbn [fst snd] in N1, N2.
  rewrite ?flatten_purge in N1, N2.
  unfold cell_numbers, org, lat in Hn. rewrite !Forall_app in Hn. destruct Hn as (Ho & Hx & Hy & Hz & Hs).
  exists (vec_line round5 org), (vec_line round5 (x0, x1, x2)), (vec_line round5 (y0, y1, y2)), (vec_line round5 (z0, z1, z2)), (map (orb_line round5) (orbs p)), (map (hop_line show) (flatten (hop p))), (flatten (hop p)).
  split; [reflexivity|]. unfold org. rewrite !vec_cols. do 4 (split; [apply row_read; assumption|]). split.
  { clear -Hs Hr. induction (orbs p) as [|o l IH]; [constructor|]. cbn [flat_map] in Hs. rewrite !Forall_app in Hs. destruct Hs as [[Hp He] Hs]. cbn [map]. constructor; [|exact (IH Hs)].
    unfold orb_line. rewrite vec_cols. destruct (position o) as [[x y] z].
    replace (_ ++ _)%string with (cols (map (fixed5 round5) [x; y; z; energy o])).
    - apply row_read; [exact Hr|]. inversion_clear Hp as [|? ? P1 Hp']. inversion_clear Hp' as [|? ? P2 Hp'']. inversion_clear Hp'' as [|? ? P3 _]. inversion_clear He as [|? ? P4 _]. auto.
    - unfold col. cbn [map cols fold_right]. rewrite !append_nil, !append_assoc. reflexivity. }
  split.
  { clear. induction (flatten (hop p)) as [|[[[[a b] c] [i j]] e] l IH]; [constructor|]. cbn [map]. constructor; [|exact IH].
    exists (int_repr a), (int_repr b), (int_repr c), (int_repr i), (int_repr j). do 5 (split; [apply int_repr_text|]). reflexivity. }
  split; [exact N1|]. intros r i j e. rewrite N2. rewrite combine_split_map. reflexivity.
Qed.
Print Assumptions C98_cell.

(** The contract of rounding can be met. *)
Example C98_rounds : exists f, rounds f.
Proof.
  exists (fun v => (if Rlt_dec v 0 then true else false, up (Rabs v * 100000 + / 2) - 1)). intros v. cbn [fst snd].
  destruct (archimed (Rabs v * 100000 + / 2)) as [A1 A2]. pose proof (Rabs_pos v) as Hp. split.
  - assert (0 < up (Rabs v * 100000 + / 2)) by (apply lt_IZR; lra). lia.
  - unfold close. rewrite minus_IZR. set (u := IZR (up (Rabs v * 100000 + / 2))) in *. clearbody u.
    destruct (Rlt_dec v 0) as [H|H].
    + rewrite Rabs_left in * by lra. unfold Rabs. destruct (Rcase_abs _); lra.
    + rewrite (Rabs_right v) in * by lra. unfold Rabs. destruct (Rcase_abs _); lra.
Qed.

(** Finding: the columns have no separator.  A number that fills ten characters
    runs into its neighbour, and the line no longer has the numbers as words. *)
Lemma rounded f v (b : bool) n : rounds f -> v = ((if b then -1 else 1) * (IZR n / 100000))%R -> 0 < n -> f v = (b, n).
Proof.
  intros H -> Hn. destruct (H ((if b then -1 else 1) * (IZR n / 100000))%R) as [H0 Hc]. destruct (f _) as [b' m]. cbn [fst snd] in *. unfold close in Hc.
  assert (H1 : (1 <= IZR n)%R) by (apply (IZR_le 1); lia). assert (H2 : (0 <= IZR m)%R) by (apply (IZR_le 0); lia).
  assert (Hb : b' = b) by (revert Hc; unfold Rabs; destruct (Rcase_abs _), b, b'; intros; first [reflexivity|exfalso; lra]). subst b'. f_equal.
  assert (m < n + 1 /\ n < m + 1) by (split; apply lt_IZR; rewrite plus_IZR; revert Hc; unfold Rabs; destruct (Rcase_abs _), b; intros; lra). lia.
Qed.
Lemma F2_length {A B} (P : A -> B -> Prop) l m : Forall2 P l m -> List.length l = List.length m.
Proof. induction 1; cbn; congruence. Qed.
Theorem C98_columns_refuted : forall round5, rounds round5 ->
  vec_line round5 (1, -100, 1)%R = "   1.00000-100.00000   1.00000"%string /\
  ~ numbers_line (vec_line round5 (1, -100, 1)%R) [1; -100; 1]%R.
Proof.
  intros f Hf.
  assert (E : vec_line f (1, -100, 1)%R = "   1.00000-100.00000   1.00000"%string).
  { unfold vec_line, col, fixed5. rewrite (rounded f 1 false 100000 Hf), (rounded f (-100) true 10000000 Hf) by first [lra|lia]. reflexivity. }
  split; [exact E|]. rewrite E. intros (_ & ws & xs & Hs & H1 & H2). apply spells_split in Hs.
  assert (L : List.length ws = 3%nat) by (rewrite (F2_length _ _ _ H1), (F2_length _ _ _ H2); reflexivity). rewrite <- Hs in L. discriminate L.
Qed.
Print Assumptions C98_columns_refuted.

(** ** Banners *)
Lemma times_run c n : times (String c EmptyString) n = run_of c (Z.to_nat n).
Proof. unfold times. induction (Z.to_nat n) as [|k IH]; [reflexivity|]. cbn [srep run_of]. rewrite IH. reflexivity. Qed.
Lemma run_length c n : String.length (run_of c n) = n.
Proof. induction n as [|n IH]; [reflexivity|]. cbn. rewrite IH. reflexivity. Qed.

(** A banner of one line is as wide as asked, or as the text needs; the text
    is in its middle.  The three lines of a block are equally wide if the text
    fits. *)
Theorem C98_banner : forall text width mark fin, 0 <= width ->
  let one c := String c EmptyString in
  (exists body, banner_line text width (one mark) (one fin) = one fin +++ body +++ one fin /\ centred mark (" " +++ text +++ " ") body) /\
  Z.of_nat (String.length (banner_line text width (one mark) (one fin))) = Z.max width (Z.of_nat (String.length text) + 4) /\
  (exists border body, banner_block text width (one mark) (one fin) = [border; one fin +++ body +++ one fin; border] /\ centred " " text body /\
     border = one fin +++ run_of mark (Z.to_nat (width - 2)) +++ one fin /\
     (Z.of_nat (String.length text) + 2 <= width ->
        Z.of_nat (String.length border) = width /\ Z.of_nat (String.length (one fin +++ body +++ one fin)) = width)).
Proof.
  intros text width mark fin Hw one.
  assert (Hh : forall t, (Z.to_nat (t / 2) <= Z.to_nat (t - t / 2) <= S (Z.to_nat (t / 2)))%nat).
  { intros t. pose proof (Z.div_mod t 2 ltac:(lia)). pose proof (Z.mod_pos_bound t 2 ltac:(lia)). lia. }
  unfold banner_line, banner_block, one. rewrite !times_run. split; [|split].
  - set (t := width - Z.of_nat (String.length text) - 4). exists (run_of mark (Z.to_nat (t / 2)) +++ (" " +++ text +++ " ") +++ run_of mark (Z.to_nat (t - t / 2))).
    split; [|do 2 eexists; split; [reflexivity|apply Hh]]. rewrite !append_assoc. reflexivity.
  - set (t := width - Z.of_nat (String.length text) - 4). pose proof (Z.div_mod t 2 ltac:(lia)). pose proof (Z.mod_pos_bound t 2 ltac:(lia)).
    rewrite !length_app, !run_length. cbn [String.length]. lia.
  - set (t := width - Z.of_nat (String.length text) - 2).
    exists (String fin EmptyString +++ run_of mark (Z.to_nat (width - 2)) +++ String fin EmptyString), (run_of " " (Z.to_nat (t / 2)) +++ text +++ run_of " " (Z.to_nat (t - t / 2))).
    split; [rewrite !append_assoc; reflexivity|]. split; [do 2 eexists; split; [reflexivity|apply Hh]|]. split; [reflexivity|]. intros Hl. pose proof (Z.div_mod t 2 ltac:(lia)). pose proof (Z.mod_pos_bound t 2 ltac:(lia)).
    rewrite !length_app, !run_length. cbn [String.length]. lia.
Qed.
Print Assumptions C98_banner.

Example C98_banner_example :
  banner_line "FOO" 14 "-" "#" = "#--- FOO ----#"%string /\ banner_line "FOO" 3 "-" "#" = "# FOO #"%string /\
  banner_block "FOO" 9 "-" "#" = ["#-------#"; "#  FOO  #"; "#-------#"]%string.
Proof. repeat split. Qed.

(** A chain: one orbital, one hopping term, kept as its conjugate. *)
Example C98_example : forall round5, rounds round5 ->
  let p := fst (run (fun e : Z => e) 0%R pc_empty [OpAddOrb [1%R; 1%R] (5/2)%R tt; OpAddHop [-1; 0] 0 0 (-12)]) in
  let l := pc_print round5 int_repr ((1, 2, 3), (1, 1, 2), (3, 2, 1))%R (1, 1, 1)%R p in
  List.length l = 10%nat /\ nth 5 l ""%string = "   3.00000   2.00000   1.00000"%string /\ nth 9 l ""%string = "  (1, 0, 0) (0, 0) -12"%string.
Proof.
  intros f Hf p l. split; [reflexivity|]. split; [|reflexivity]. cbn. unfold vec_line, col, fixed5.
  rewrite (rounded f 1 false 100000 Hf), (rounded f 2 false 200000 Hf), (rounded f 3 false 300000 Hf) by first [lra|lia]. reflexivity.
Qed.
