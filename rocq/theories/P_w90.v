(** C92: reading the files of Wannier90. *)
From Coq Require Import Reals Lra String Ascii.
From Verif Require Import Prelude Vec Cx M_super M_hop M_pc M_lat M_wan M_w90 S_lat S_w90 L_lat L_w90.
Local Open Scope Z_scope.
Local Open Scope list_scope.

(** ** Words and numbers: everything that is written as S_w90 says is read, and
    nothing else. *)
Theorem C92_words : forall s l, split s = l <-> spells s l.
Proof. intros s l. split; [intros <-; exact (split_spells s)|exact (spells_split s l)]. Qed.
Print Assumptions C92_words.
Theorem C92_int : forall s z, int_of s = Ok z <-> int_line s z.
Proof. intros s z. split; [exact (int_of_inv s z)|exact (int_line_ok s z)]. Qed.
Print Assumptions C92_int.
Theorem C92_float : forall s x, float_of s = Ok x <-> exists t, padded s t /\ number_text t x.
Proof.
  intros s x. split; [exact (float_of_inv s x)|]. intros (t & Hp & Ht). pose proof (float_of_ok t x Ht) as E. unfold float_of in *.
  rewrite (strip_padded s t (number_word t x Ht) Hp). rewrite (strip_word t (number_word t x Ht)) in E. exact E.
Qed.
Print Assumptions C92_float.

(** ** The files *)
Theorem C92_lattice : forall win a0 a1 a2 u, win_layout BOHR2ANG win a0 a1 a2 u ->
  bind (read_lat_vec win) mat3 = Ok (vscale u a0, vscale u a1, vscale u a2).
Proof.
  intros win [[a b] c] [[d e] f] [[g h] i] u H. rewrite (read_lat_ok _ _ _ _ _ H). cbn. rewrite !(Rmult_comm _ u). reflexivity.
Qed.
Print Assumptions C92_lattice.
Theorem C92_centres : forall xyz vs, xyz_layout xyz vs -> bind (read_orb_pos xyz) (mapM vec3) = Ok vs.
Proof. intros xyz vs H. rewrite (read_orb_pos_ok _ _ H). exact (vec3_ok vs). Qed.
Print Assumptions C92_centres.
Theorem C92_hop : forall hr rows deg, hr_layout hr rows -> read_hop_text hr = Ok (M_wan.read_hop {| degen := deg; M_wan.rows := rows |}).
Proof. intros hr rows deg H. rewrite (read_hop_ok _ _ H), read_hop_parsed. reflexivity. Qed.
Print Assumptions C92_hop.
Theorem C92_wsvec : forall f bs, ws_layout f bs -> read_wsvec_text f = Ok (M_wan.read_wsvec bs).
Proof. exact read_wsvec_ok. Qed.
Print Assumptions C92_wsvec.

(** The whole: the model of C47, with orbitals at the centres. *)
Theorem C92_files : forall {W L : Type} (w0 : W) (l0 : L) small over real f c win xyz hr a0 a1 a2 u vs rows ws wl deg,
  f_win f = Some win -> win_layout BOHR2ANG win a0 a1 a2 u -> independent (vscale u a0) (vscale u a1) (vscale u a2) ->
  f_xyz f = Some xyz -> xyz_layout xyz vs -> f_hr f = Some hr -> hr_layout hr rows ->
  (c = false /\ ws = None \/ c = true /\ f_ws f = None /\ ws = Some None \/ c = true /\ f_ws f = Some wl /\ exists bs, ws_layout wl bs /\ ws = Some (Some bs)) ->
  exists fracs, map (affine (vscale u a0) (vscale u a1) (vscale u a2) (0, 0, 0)%R) fracs = vs
    /\ wan2pc_text w0 l0 small over real f c
       = bind (M_wan.wan2pc Cconj 0%R w0 l0 small over real (map unvec fracs) {| degen := deg; M_wan.rows := rows |} ws)
           (fun s => Ok ((vscale u a0, vscale u a1, vscale u a2), s)).
Proof.
  intros W L w0 l0 small over real f c win xyz hr a0 a1 a2 u vs rows ws wl deg Fw Hw I Fx Hx Fh Hh Hs.
  destruct (cart2frac_ok _ _ _ vs (0, 0, 0)%R I) as (fracs & E & Ef). exists fracs. split; [exact Ef|].
  unfold wan2pc_text. rewrite Fw, Fx, Fh. cbn [opened bind]. pose proof (C92_lattice _ _ _ _ _ Hw) as Hl. destruct (read_lat_vec win) as [lat|]; [|discriminate]. cbn [bind] in Hl |- *.
  rewrite (read_orb_pos_ok _ _ Hx). cbn [bind]. rewrite (C92_hop _ _ deg Hh). cbn [bind]. rewrite Hl. cbn [bind]. rewrite vec3_ok. cbn [bind].
  etransitivity; [apply (f_equal (fun r => bind r _) E)|]. cbn [bind]. unfold M_wan.wan2pc.
  assert (T : forall st : list rn5 * list Cplx, match add_all 0%R w0 l0 pc_empty (map unvec fracs) with
    | (s, Ok _) => match add_rows Cconj 0%R small real s (fst st) (snd st) with (s', Ok _) => Ok ((vscale u a0, vscale u a1, vscale u a2), s') | (_, Err x) => Err x end
    | (_, Err x) => Err x end
    = bind match add_all 0%R w0 l0 pc_empty (map unvec fracs) with
      | (_, Err x) => Err x
      | (s, Ok _) => match add_rows Cconj 0%R small real s (fst st) (snd st) with (s', Ok _) => Ok s' | (_, Err x) => Err x end
      end (fun s => Ok ((vscale u a0, vscale u a1, vscale u a2), s))).
  { intros st. destruct (add_all _ _ _ _ _) as [s [o|x]]; [|reflexivity]. destruct (add_rows _ _ _ _ _ _ _) as [s' [o'|x]]; reflexivity. }
  destruct Hs as [(-> & ->)|[(-> & Fs & ->)|(-> & Fs & bs & Hb & ->)]].
  - cbn [bind]. apply T.
  - rewrite Fs. reflexivity.
  - rewrite Fs. cbn [opened bind]. rewrite (C92_wsvec _ _ Hb). cbn [bind]. destruct (apply_wsvec _ _ _) as [st|x]; [|reflexivity]. cbn [bind]. apply T.
Qed.
Print Assumptions C92_files.
Theorem C92_missing : forall {W L : Type} (w0 : W) (l0 : L) small over real f c,
  f_win f = None -> wan2pc_text w0 l0 small over real f c = Err FileNotFoundError.
Proof. intros W L w0 l0 small over real f c H. unfold wan2pc_text. rewrite H. reflexivity. Qed.
Print Assumptions C92_missing.

(** ** What a user may not expect *)
(** An empty line at the end of the file is not skipped. *)
Lemma mapM_app_err {A B} (f : A -> res B) l m x : (exists y, mapM f l = Ok y) -> mapM f m = Err x -> mapM f (l ++ m) = Err x.
Proof.
  intros (y & E) Hm. revert y E. induction l as [|a l IH]; intros y E; [exact Hm|]. cbn [app mapM] in *. destruct (f a) as [b|]; [|discriminate]. cbn [bind] in *. destruct (mapM f l) as [z|]; [|discriminate]. rewrite (IH z eq_refl). reflexivity.
Qed.
Theorem C92_empty_line : forall hr rows xyz vs b, blank b -> hr_layout hr rows -> xyz_layout xyz vs ->
  read_hop_text (hr ++ [b]) = Err IndexError /\ read_orb_pos (xyz ++ [b]) = Err IndexError.
Proof.
  intros hr rows xyz vs b Hb (title & num & cells & deg & body & n & -> & Hn & Hd & Hl) (h1 & h2 & ls & -> & Hx). split.
  - unfold read_hop_text. cbn [app field nth_error bind]. rewrite (int_line_ok _ _ Hn). cbn [bind]. rewrite (ceil15_ok _ _ Hd).
    assert (E : py_from (title :: num :: cells :: (deg ++ body) ++ [b]) (3 + Z.of_nat (List.length deg)) = body ++ [b]).
    { unfold py_from. destruct (3 + Z.of_nat (List.length deg) <? 0) eqn:Q; [lia|]. rewrite <- app_assoc.
      replace (Z.to_nat (3 + Z.of_nat (List.length deg))) with (S (S (S (List.length deg)))) by lia. cbn [skipn]. rewrite skipn_app, skipn_all, Nat.sub_diag. reflexivity. }
    rewrite E, (mapM_app_err hop_line body [b] IndexError); [reflexivity| |].
    + eexists. exact (mapM_Forall2 hop_line zero_based hop_text body rows hop_line_ok Hl).
    + cbn [mapM]. unfold hop_line. rewrite (split_blank _ Hb). reflexivity.
  - unfold read_orb_pos. cbn [app skipn]. rewrite (mapM_app_err centre ls [b] IndexError); [reflexivity| |].
    + destruct (xyz_body_ok _ _ Hx) as (l & E & _). exists l. exact E.
    + cbn [mapM]. unfold centre. rewrite (split_blank _ Hb). reflexivity.
Qed.
Print Assumptions C92_empty_line.
(** A file cut after any number of matrix elements is read without an error:
    the numbers in the header are not compared with the body. *)
Theorem C92_truncated_refuted : forall hr r1 r2, hr_layout hr (r1 ++ r2) -> r2 <> [] ->
  exists k deg, (k < List.length hr)%nat /\ read_hop_text (firstn k hr) = Ok (M_wan.read_hop {| degen := deg; M_wan.rows := r1 |}).
Proof.
  intros hr r1 r2 (title & num & cells & deg & body & n & -> & Hn & Hd & Hb) Hr. apply Forall2_app_inv_r in Hb as (b1 & b2 & H1 & H2 & ->).
  exists (3 + (List.length deg + List.length b1))%nat, []. split.
  - cbn [List.length]. rewrite !app_length. destruct H2; [congruence|]. cbn [List.length]. lia.
  - apply C92_hop. exists title, num, cells, deg, b1, n. repeat split; try assumption; try lia. cbn [firstn Nat.add]. do 3 f_equal.
    rewrite app_assoc, firstn_app, app_length, Nat.sub_diag, <- app_length, firstn_all. cbn [firstn]. apply app_nil_r.
Qed.
Print Assumptions C92_truncated_refuted.
(** Without the two keywords there are no lattice vectors, and no error. *)
Theorem C92_no_block : forall win, Forall plain win -> read_lat_vec win = Ok [].
Proof.
  intros win H. unfold read_lat_vec, lat_block. rewrite (locate_plains win H). cbn [Nat.add Nat.sub skipn]. destruct win as [|l win]; [reflexivity|]. cbn [firstn]. destruct win; reflexivity.
Qed.
Print Assumptions C92_no_block.
(** Only four spellings of the two units are known. *)
Theorem C92_unit : forall pre b l w l0 l1 l2 e post a0 a1 a2, Forall plain (pre ++ post) -> keyword "begin unit_cell_cart" b -> keyword "end unit_cell_cart" e ->
  plain l -> padded l w -> word w -> ~ In w ["Ang"; "ang"; "Bohr"; "bohr"]%string -> row_text l0 a0 -> row_text l1 a1 -> row_text l2 a2 ->
  read_lat_vec (pre ++ b :: l :: l0 :: l1 :: l2 :: e :: post) = Err ValueError.
Proof.
  intros pre b l w l0 l1 l2 e post a0 a1 a2 Hp Hb He Hl Hw Ww Hn H0 H1 H2. unfold read_lat_vec.
  assert (Blk : lat_block (pre ++ b :: l :: l0 :: l1 :: l2 :: e :: post) = [b; l; l0; l1; l2; e]).
  { apply (lat_block_ok pre b [l; l0; l1; l2] e post); try assumption. repeat constructor; try apply Hl; eapply row_plain; eassumption. }
  rewrite Blk. cbn [app lat_raw List.length Nat.eqb nth_error removelast skipn bind mapM]. rewrite (strip_padded l w Ww Hw), (row_ok _ _ H0), (row_ok _ _ H1), (row_ok _ _ H2). cbn [bind].
  change [unvec a0; unvec a1; unvec a2] with (map unvec [a0; a1; a2]). unfold array2. rewrite rect3. cbn [bind existsb].
  destruct (String.eqb_spec w "Ang") as [->|_]; [exfalso; apply Hn; cbn; tauto|]. destruct (String.eqb_spec w "ang") as [->|_]; [exfalso; apply Hn; cbn; tauto|].
  destruct (String.eqb_spec w "Bohr") as [->|_]; [exfalso; apply Hn; cbn; tauto|]. destruct (String.eqb_spec w "bohr") as [->|_]; [exfalso; apply Hn; cbn; tauto|]. reflexivity.
Qed.
Print Assumptions C92_unit.

(** ** Examples *)
Local Open Scope string_scope.
Definition nl : string := String (ascii_of_nat 10) EmptyString.
Definition win_ex : list string :=
  ["num_wann = 8" +++ nl; nl; "begin unit_cell_cart" +++ nl; "bohr" +++ nl; "   2.0   0.0  0" +++ nl; "  -1.  1.75e0   0.0" +++ nl; "   0.0  +0.0  15.5" +++ nl; "end unit_cell_cart" +++ nl; nl; "mp_grid = 12 12 1" +++ nl].
Ltac visible_word := (split; [discriminate|]; cbn; repeat constructor; apply visible; reflexivity).
Ltac blank_text := (cbn; repeat constructor; apply space_spec; reflexivity).
Ltac spelled := match goal with |- spells ?l ?m => let w := eval vm_compute in (split l) in unify m w; exact (split_spells l) end.
Ltac a_row := eexists _, _, _; split; [spelled|]; split; [|split]; match goal with |- number_text ?s _ => exact (number_of s _ eq_refl) end.
Ltac not_keyword := split; intros Q; [apply begin_ok in Q|apply end_ok in Q]; discriminate Q.
Example C92_ex_win : win_layout BOHR2ANG win_ex (dec10 20 (-1), dec10 0 (-1), dec10 0 0)%R (dec10 (-1) 0, dec10 175 (-2), dec10 0 (-1))%R (dec10 0 (-1), dec10 0 (-1), dec10 155 (-1))%R BOHR2ANG.
Proof.
  exists ["num_wann = 8" +++ nl; nl], ("begin unit_cell_cart" +++ nl), ["bohr" +++ nl], ("   2.0   0.0  0" +++ nl), ("  -1.  1.75e0   0.0" +++ nl), ("   0.0  +0.0  15.5" +++ nl), ("end unit_cell_cart" +++ nl), [nl; "mp_grid = 12 12 1" +++ nl].
  split; [reflexivity|]. split; [exists "", nl; split; [constructor|reflexivity]|]. split; [exists "", nl; split; [constructor|reflexivity]|].
  split; [right; exists ("bohr" +++ nl), "bohr"; split; [reflexivity|]; split; [exists "", nl; split; [constructor|]; split; [blank_text|reflexivity]|right; auto]|].
  split; [a_row|]. split; [a_row|]. split; [a_row|]. repeat (constructor; [not_keyword|]). constructor.
Qed.
Example C92_ex_values : (dec10 20 (-1) = 2 /\ dec10 175 (-2) = 175 / 100 /\ dec10 155 (-1) = 155 / 10)%R.
Proof. unfold dec10. change (powerRZ 10 (-1)) with (/ (10 * 1))%R. change (powerRZ 10 (-2)) with (/ (10 * (10 * 1)))%R. repeat split; lra. Qed.
Definition hr_ex : list string :=
  [" written on 18Nov2020 at 17:20:51 " +++ nl; "           2" +++ nl; "          16" +++ nl; "    1    1    2    2    1    1    1    1    1    2    1    1    1    1    1" +++ nl; "    1" +++ nl;
   "   -1    0    0    2    1   -0.500000    0.250000" +++ nl; "    1    0    0    1    2   -0.500000   -0.250000" +++ nl].
Definition rows_ex : list (rn3 * Z * Z * Cplx) := [((-1, 0, 0), 2, 1, (dec10 (-500000) (-6), dec10 250000 (-6))); ((1, 0, 0), 1, 2, (dec10 (-500000) (-6), dec10 (-250000) (-6)))].
Ltac a_num := match goal with |- number_text ?s _ => exact (number_of s _ eq_refl) end.
Ltac an_int := match goal with |- int_text ?s _ => exact (signed_digits_inv s _ eq_refl) end.
Example C92_ex_hr : hr_layout hr_ex rows_ex.
Proof.
  eexists _, _, _, ["    1    1    2    2    1    1    1    1    1    2    1    1    1    1    1" +++ nl; "    1" +++ nl], _, 16. split; [reflexivity|]. split; [apply int_of_inv; reflexivity|]. split; [cbn; lia|].
  repeat (constructor; [eexists _, _, _, _, _, _, _, []; split; [spelled|]; repeat split; try an_int; match goal with |- number_text ?s _ => exact (number_of s _ eq_refl) end|]). constructor.
Qed.
Example C92_ex_hop : read_hop_text hr_ex = Ok ([((-1, 0, 0), (1, 0)); ((1, 0, 0), (0, 1))], [(dec10 (-500000) (-6), dec10 250000 (-6)); (dec10 (-500000) (-6), dec10 (-250000) (-6))]).
Proof. reflexivity. Qed.
Definition xyz_ex : list string := ["    3" +++ nl; " Wannier centres, written by Wannier90" +++ nl; "X         -0.58214807       0.33297218      -0.02450463" +++ nl; "X  1. 2. 3." +++ nl; "C          0.00000000       0.00000000       0.00000000" +++ nl].
Example C92_ex_xyz : xyz_layout xyz_ex [(dec10 (-58214807) (-8), dec10 33297218 (-8), dec10 (-2450463) (-8)); (dec10 1 0, dec10 2 0, dec10 3 0)].
Proof.
  eexists _, _, _. split; [reflexivity|].
  eapply xyz_centre; [spelled|a_num|a_num|a_num|].
  eapply xyz_centre; [spelled|a_num|a_num|a_num|].
  eapply xyz_atom; [spelled|discriminate|constructor].
Qed.
Definition ws_ex : list string := ["## written on 18Nov2020" +++ nl; "   -7   -4    0    1    2" +++ nl; "    2" +++ nl; "    0    0    0" +++ nl; "   12    0    0" +++ nl; "   -7   -4    0    2    2" +++ nl; "    0" +++ nl].
Example C92_ex_ws : read_wsvec_text ws_ex = Ok [(((-7, -4, 0), (0, 1)), [(0, 0, 0); (12, 0, 0)]); (((-7, -4, 0), (1, 1)), [])].
Proof. reflexivity. Qed.
Example C92_ex_ws_layout : ws_layout ws_ex [((-7, -4, 0), 1, 2, [(0, 0, 0); (12, 0, 0)]); ((-7, -4, 0), 2, 2, [])].
Proof.
  eexists _, _. split; [reflexivity|].
  eapply (ws_cons _ _ ["    0    0    0" +++ nl; "   12    0    0" +++ nl] _ _ _ _ _ _ []); [spelled|an_int|an_int|an_int|an_int|an_int|apply int_of_inv; reflexivity| |].
  { repeat (constructor; [eexists _, _, _, []; split; [spelled|]; repeat split; an_int|]). constructor. }
  eapply (ws_cons _ _ [] [] _ _ _ _ _ []); [spelled|an_int|an_int|an_int|an_int|an_int|apply int_of_inv; reflexivity|constructor|constructor].
Qed.
Example C92_ex_refused : int_of "1.5" = Err ValueError /\ int_of " " = Err ValueError /\ float_of "******" = Err ValueError /\ float_of "1.0D0" = Err ValueError /\ float_of "." = Err ValueError /\ float_of "1e" = Err ValueError.
Proof. repeat split. Qed.
Example C92_ex_cut : read_wsvec_text (firstn 4 ws_ex) = Err StopIteration.
Proof. reflexivity. Qed.

(** Wannier90 does not distinguish capital letters; here such a file has no
    lattice vectors. *)
Definition win_caps : list string :=
  ["Begin Unit_Cell_Cart" +++ nl; "Bohr" +++ nl; "   2.0   0.0  0.0" +++ nl; "   0.0  2.0   0.0" +++ nl; "   0.0  0.0  15.5" +++ nl; "End Unit_Cell_Cart" +++ nl].
Theorem C92_capitals_refuted : read_lat_vec win_caps = Ok []
  /\ forall (x h w : option (list string)) c, exists e, wan2pc_text tt tt (fun _ => false) (fun z _ => z) (fun _ => tt) {| f_win := Some win_caps; f_xyz := x; f_hr := h; f_ws := w |} c = Err e.
Proof.
  assert (E : read_lat_vec win_caps = Ok []) by reflexivity. split; [exact E|]. intros x h w c. unfold wan2pc_text. cbn [f_win f_xyz f_hr opened bind]. rewrite E. cbn [bind].
  destruct (bind (opened x) read_orb_pos) as [p|e]; [|exists e; reflexivity]. cbn [bind]. destruct (bind (opened h) read_hop_text) as [s|e]; [|exists e; reflexivity]. exists ValueError. reflexivity.
Qed.
Print Assumptions C92_capitals_refuted.
(** Degeneracies with ten in a line: the third line is read as a matrix
    element. *)
Definition hr_ten : list string := ["comment"; "1"; "30"; "1 1 1 1 1 1 1 1 1 1"; "1 1 1 1 1 1 1 1 1 1"; "2 1 1 1 1 1 1 1 1 1"; "0 0 0 1 1 3.5 0.0"].
Theorem C92_per_line_refuted : read_hop_text hr_ten = Ok ([((2, 1, 1), (0, 0)); ((0, 0, 0), (0, 0))], [(dec10 1 0, dec10 1 0); (dec10 35 (-1), dec10 0 (-1))]).
Proof. reflexivity. Qed.
Print Assumptions C92_per_line_refuted.
