(** Reading back what the layouts of S_w90 spell. *)
From Coq Require Import Reals Lra String Ascii.
From Verif Require Import Prelude Vec Cx M_super M_hop M_lat M_wan M_w90 S_w90.
Local Open Scope Z_scope.
Local Open Scope list_scope.

Lemma space_spec c : space c = true <-> blank_char c.
Proof.
  unfold space, blank_char. set (n := nat_of_ascii c). clearbody n. cbn [In].
  rewrite orb_true_iff, !andb_true_iff, !Nat.leb_le. lia.
Qed.
Lemma space_no c : ~ blank_char c -> space c = false.
Proof. intros H. destruct (space c) eqn:E; [|reflexivity]. apply space_spec in E. contradiction. Qed.
Lemma lstrip_gap g s : blank g -> lstrip (g +++ s) = lstrip s.
Proof.
  unfold blank. induction g as [|c g IH]; intros H; [reflexivity|]. cbn [list_ascii_of_string] in H. inversion H as [|? ? H1 H2]; subst.
  cbn [String.append lstrip]. apply space_spec in H1. rewrite H1. apply IH. exact H2.
Qed.
Lemma split_gap g s : blank g -> split (g +++ s) = split s.
Proof.
  unfold blank. induction g as [|c g IH]; intros H; [reflexivity|]. cbn [list_ascii_of_string] in H. inversion H as [|? ? H1 H2]; subst.
  cbn [String.append split]. apply space_spec in H1. rewrite H1. apply IH. exact H2.
Qed.
Lemma append_nil s : s +++ EmptyString = s.
Proof. induction s as [|c s IH]; [reflexivity|]. cbn. f_equal. exact IH. Qed.
Lemma append_assoc a b c : (a +++ b) +++ c = a +++ b +++ c.
Proof. induction a as [|x a IH]; [reflexivity|]. cbn. f_equal. exact IH. Qed.
Lemma split_blank g : blank g -> split g = [].
Proof. intros H. rewrite <- (append_nil g), split_gap by exact H. reflexivity. Qed.
Lemma split_word w t : word w -> (t = EmptyString \/ exists b s, t = String b s /\ blank_char b) -> split (w +++ t) = w :: split t.
Proof.
  intros (Hn & Hw) Ht. induction w as [|c w IH]; [congruence|]. cbn [list_ascii_of_string] in Hw. inversion Hw as [|? ? H1 H2]; subst.
  cbn [String.append split]. rewrite (space_no _ H1). destruct w as [|d w].
  - cbn [String.append]. destruct Ht as [->|(b & s & -> & Hb)]; [reflexivity|]. apply space_spec in Hb. rewrite Hb. reflexivity.
  - cbn [list_ascii_of_string] in H2. pose proof H2 as H3. inversion H3 as [|? ? H4 H5]; subst. cbn [String.append]. rewrite (space_no _ H4).
    change (String d (w +++ t)) with (String d w +++ t). rewrite IH; [reflexivity|discriminate|exact H2].
Qed.
Lemma spells_split s l : spells s l -> split s = l.
Proof.
  induction 1 as [g H|g w H1 H2|g w b s ws H1 H2 H3 H4 IH].
  - apply split_blank. exact H.
  - rewrite split_gap by exact H1. rewrite <- (append_nil w), split_word; [rewrite append_nil; reflexivity|exact H2|left; reflexivity].
  - rewrite split_gap by exact H1. rewrite split_word; [|exact H2|right; exists b, s; split; [reflexivity|exact H3]].
    cbn [split]. apply space_spec in H3. rewrite H3, IH. reflexivity.
Qed.

(** ** Stripping *)
Lemma lstrip_word w t : word w -> lstrip (w +++ t) = w +++ t.
Proof. intros (Hn & Hw). destruct w as [|c w]; [congruence|]. cbn [list_ascii_of_string] in Hw. inversion Hw; subst. cbn. rewrite space_no by assumption. reflexivity. Qed.
Lemma rstrip_blank h : blank h -> rstrip h = EmptyString.
Proof.
  unfold blank. induction h as [|c h IH]; intros H; [reflexivity|]. cbn [list_ascii_of_string] in H. inversion H as [|? ? H1 H2]; subst.
  cbn [rstrip]. rewrite IH by exact H2. apply space_spec in H1. rewrite H1. reflexivity.
Qed.
Lemma rstrip_word w h : word w -> blank h -> rstrip (w +++ h) = w.
Proof.
  intros (Hn & Hw) Hh. induction w as [|c w IH]; [congruence|]. cbn [list_ascii_of_string] in Hw. inversion Hw as [|? ? H1 H2]; subst.
  cbn [String.append rstrip]. destruct w as [|d w].
  - cbn [String.append]. rewrite rstrip_blank by exact Hh. rewrite space_no by exact H1. reflexivity.
  - rewrite IH; [reflexivity|discriminate|exact H2].
Qed.
Lemma strip_padded s w : word w -> padded s w -> strip s = w.
Proof. intros Hw (g & h & Hg & Hh & ->). unfold strip. rewrite lstrip_gap, lstrip_word, rstrip_word by assumption. reflexivity. Qed.
Lemma strip_word w : word w -> strip w = w.
Proof. intros H. apply strip_padded; [exact H|]. exists EmptyString, EmptyString. repeat split; [constructor|constructor|]. cbn. rewrite append_nil. reflexivity. Qed.

(** ** Numbers *)
Lemma digit_ok c d : digit_char c d -> digit c = Some d.
Proof.
  intros (H1 & H2). unfold digit. set (n := nat_of_ascii c) in *. clearbody n.
  replace ((48 <=? n) && (n <=? 57))%nat with true by (symmetry; rewrite andb_true_iff, !Nat.leb_le; lia). f_equal. lia.
Qed.
Lemma digit_visible c d : digit_char c d -> ~ blank_char c.
Proof. intros (H1 & H2) H. unfold blank_char in H. set (n := nat_of_ascii c) in *. clearbody n. cbn [In] in H. lia. Qed.
Lemma numeral_loop s n k : numeral s n k -> forall acc t, digits_loop acc (s +++ t) = digits_loop (acc * 10 ^ Z.of_nat k + n) t.
Proof.
  induction 1 as [|s n k c d H IH Hd]; intros acc t.
  - cbn. f_equal. lia.
  - rewrite append_assoc, IH. cbn [String.append digits_loop]. rewrite (digit_ok _ _ Hd). f_equal.
    rewrite Nat2Z.inj_succ, Z.pow_succ_r by lia. lia.
Qed.
Lemma numeral_span s n k : numeral s n k -> forall acc j t, span_digits acc j (s +++ t) = span_digits (acc * 10 ^ Z.of_nat k + n) (j + k) t.
Proof.
  induction 1 as [|s n k c d H IH Hd]; intros acc j t.
  - cbn. f_equal; lia.
  - rewrite append_assoc, IH. cbn [String.append span_digits]. rewrite (digit_ok _ _ Hd). f_equal; [|lia].
    rewrite Nat2Z.inj_succ, Z.pow_succ_r by lia. lia.
Qed.
Lemma numeral_chars s n k : numeral s n k -> Forall (fun c => exists d, digit_char c d) (list_ascii_of_string s) /\ String.length s = k.
Proof.
  induction 1 as [|s n k c d H [IH1 IH2] Hd]; [split; [constructor|reflexivity]|]. split.
  - clear -IH1 Hd. induction s as [|x s IH]; cbn in *; [constructor; [exists d; exact Hd|constructor]|]. inversion IH1; subst. constructor; auto.
  - rewrite <- IH2. clear. induction s as [|x s IH]; cbn in *; [reflexivity|]. f_equal. exact IH.
Qed.
Lemma numeral_digits s n k : numeral s n (S k) -> digits s = Ok n.
Proof.
  intros H. unfold digits. destruct (numeral_chars _ _ _ H) as [_ L]. destruct s as [|c s]; [discriminate|].
  rewrite <- (append_nil (String c s)), (numeral_loop _ _ _ H). cbn [digits_loop]. reflexivity.
Qed.
Lemma numeral_head s n k : numeral s n (S k) -> exists c t d, s = String c t /\ digit_char c d.
Proof. intros H. destruct (numeral_chars _ _ _ H) as [F L]. destruct s as [|c s]; [discriminate|]. cbn in F. inversion F as [|? ? [d Hd] ?]; subst. exists c, s, d. auto. Qed.
Lemma digit_not c d x : digit_char c d -> digit x = None -> c <> x.
Proof. intros H Q ->. rewrite (digit_ok _ _ H) in Q. discriminate. Qed.
Lemma signed_ok {A} (neg : A -> A) f sg g s x c t :
  s = String c t -> c <> "-"%char -> c <> "+"%char -> f s = Ok x -> sign_text sg g -> signed neg f (sg +++ s) = Ok (if g =? 1 then x else neg x).
Proof.
  intros -> H1 H2 Hf [[-> ->]|[[-> ->]|[-> ->]]]; cbn [String.append Z.eqb].
  - unfold signed. destruct c as [b0 b1 b2 b3 b4 b5 b6 b7]. destruct b0, b1, b2, b3, b4, b5, b6, b7; try exact Hf; congruence.
  - exact Hf.
  - cbn [signed]. rewrite Hf. reflexivity.
Qed.
Lemma digits_signed s z : int_text s z -> signed Z.opp digits s = Ok z.
Proof.
  intros (sg & g & ds & n & k & Hs & Hn & -> & ->). destruct (numeral_head _ _ _ Hn) as (c & t & d & E & Hd).
  rewrite (signed_ok Z.opp digits sg g ds n c t E (digit_not c d "-"%char Hd eq_refl) (digit_not c d "+"%char Hd eq_refl) (numeral_digits _ _ _ Hn) Hs).
  destruct Hs as [[_ ->]|[[_ ->]|[_ ->]]]; cbn [Z.eqb Pos.eqb]; f_equal; lia.
Qed.
Lemma word_app a b : Forall (fun c => ~ blank_char c) (list_ascii_of_string a) -> Forall (fun c => ~ blank_char c) (list_ascii_of_string b) ->
  Forall (fun c => ~ blank_char c) (list_ascii_of_string (a +++ b)).
Proof. intros Ha Hb. induction a as [|c a IH]; [exact Hb|]. cbn in *. inversion Ha; subst. constructor; auto. Qed.
Lemma visible x : space x = false -> ~ blank_char x.
Proof. intros H Hb. apply space_spec in Hb. congruence. Qed.
Lemma sign_visible sg g : sign_text sg g -> Forall (fun c => ~ blank_char c) (list_ascii_of_string sg).
Proof. intros [[-> _]|[[-> _]|[-> _]]]; cbn; repeat constructor; apply visible; reflexivity. Qed.
Lemma numeral_visible s n k : numeral s n k -> Forall (fun c => ~ blank_char c) (list_ascii_of_string s).
Proof. intros H. eapply Forall_impl; [|exact (proj1 (numeral_chars _ _ _ H))]. intros c (d & Hd). exact (digit_visible _ _ Hd). Qed.
Lemma int_visible s z : int_text s z -> Forall (fun c => ~ blank_char c) (list_ascii_of_string s).
Proof. intros (sg & g & ds & n & k & Hs & Hn & -> & _). apply word_app; [exact (sign_visible _ _ Hs)|exact (numeral_visible _ _ _ Hn)]. Qed.
Lemma int_word s z : int_text s z -> word s.
Proof.
  intros H. split; [|exact (int_visible _ _ H)]. destruct H as (sg & g & ds & n & k & _ & Hn & -> & _). destruct (numeral_head _ _ _ Hn) as (c & t & d & -> & _). destruct sg; discriminate.
Qed.
Lemma int_of_ok s z : int_text s z -> int_of s = Ok z.
Proof. intros H. unfold int_of. rewrite strip_word by exact (int_word _ _ H). exact (digits_signed _ _ H). Qed.
Lemma int_line_ok s z : int_line s z -> int_of s = Ok z.
Proof. intros (t & Hp & H). unfold int_of. rewrite (strip_padded s t (int_word _ _ H) Hp). exact (digits_signed _ _ H). Qed.

Lemma exponent_ok s e : exponent_text s e -> exponent s = Ok e.
Proof. intros [[-> ->]|(c & t & Hc & -> & Ht)]; [reflexivity|]. cbn [exponent]. destruct Hc as [-> | ->]; cbn; exact (digits_signed _ _ Ht). Qed.
Lemma exponent_visible s e : exponent_text s e -> Forall (fun c => ~ blank_char c) (list_ascii_of_string s).
Proof. intros [[-> ->]|(c & t & Hc & -> & Ht)]; [constructor|]. cbn. constructor; [|exact (int_visible _ _ Ht)]. destruct Hc as [-> | ->]; apply visible; reflexivity. Qed.
Lemma span_exponent ex e acc j : exponent_text ex e -> span_digits acc j ex = (acc, j, ex).
Proof. intros [[-> ->]|(c & t & Hc & -> & Ht)]; [reflexivity|]. cbn [span_digits]. destruct Hc as [-> | ->]; reflexivity. Qed.
Lemma float_abs_ok ip n k f m l ex e : numeral ip n k -> fraction_text f m l -> exponent_text ex e -> (0 < k + l)%nat ->
  float_abs (ip +++ f +++ ex) = Ok (n * 10 ^ Z.of_nat l + m, e - Z.of_nat l).
Proof.
  intros Hi Hf He Hk. unfold float_abs. rewrite (numeral_span _ _ _ Hi). cbn [Nat.add].
  replace (0 * 10 ^ Z.of_nat k + n) with n by lia.
  destruct Hf as [(-> & -> & ->)|(fp & -> & Hp)].
  - cbn [String.append]. rewrite (span_exponent ex e n k He).
    assert (E : match ex with String "." r' => span_digits n 0 r' | _ => (n, O, ex) end%char = (n, O, ex)) by (destruct He as [[-> ->]|(c & t & [-> | ->] & -> & Ht)]; reflexivity).
    rewrite E. destruct (k + 0 =? 0)%nat eqn:Q; [apply Nat.eqb_eq in Q; lia|]. rewrite (exponent_ok ex e He). cbn [bind]. do 2 f_equal; cbn; lia.
  - cbn [String.append span_digits digit nat_of_ascii]. change (digit ".") with (@None Z). cbn iota. rewrite (numeral_span _ _ _ Hp), (span_exponent ex e _ _ He). cbn [Nat.add].
    destruct (k + l =? 0)%nat eqn:Q; [apply Nat.eqb_eq in Q; lia|]. rewrite (exponent_ok ex e He). reflexivity.
Qed.
Lemma number_word s x : number_text s x -> word s.
Proof.
  intros (sg & g & ip & n & k & f & m & l & ex & e & Hs & Hi & Hf & He & Hk & -> & _). split.
  - destruct k as [|k].
    + destruct Hf as [(_ & _ & ->)|(fp & -> & _)]; [lia|]. destruct sg; [destruct ip|]; discriminate.
    + destruct (numeral_head _ _ _ Hi) as (c & t & d & -> & _). destruct sg; discriminate.
  - repeat apply word_app; [exact (sign_visible _ _ Hs)|exact (numeral_visible _ _ _ Hi)| |exact (exponent_visible _ _ He)].
    destruct Hf as [(-> & _ & _)|(fp & -> & Hp)]; [constructor|]. cbn. constructor; [apply visible; reflexivity|exact (numeral_visible _ _ _ Hp)].
Qed.
Lemma dec10_value g n m l e : (g = 1 \/ g = -1) -> dec10 (g * (n * 10 ^ Z.of_nat l + m)) (e - Z.of_nat l) = (IZR g * (IZR n + IZR m / 10 ^ l) * powerRZ 10 e)%R.
Proof.
  intros _. unfold dec10. assert (P : (10 ^ l <> 0)%R) by (apply pow_nonzero; lra).
  rewrite mult_IZR, plus_IZR, mult_IZR, <- pow_IZR. unfold Z.sub. rewrite powerRZ_add by lra. rewrite powerRZ_neg'. rewrite <- pow_powerRZ. field. exact P.
Qed.
Lemma float_of_ok s x : number_text s x -> float_of s = Ok x.
Proof.
  intros H. unfold float_of. rewrite strip_word by exact (number_word _ _ H).
  destruct H as (sg & g & ip & n & k & f & m & l & ex & e & Hs & Hi & Hf & He & Hk & -> & ->).
  pose proof (float_abs_ok ip n k f m l ex e Hi Hf He Hk) as A.
  assert (Hd : exists c t, ip +++ f +++ ex = String c t /\ c <> "-"%char /\ c <> "+"%char).
  { destruct k as [|k].
    - destruct (numeral_chars _ _ _ Hi) as [_ L]. destruct ip; [|discriminate]. destruct Hf as [(_ & _ & ->)|(fp & -> & _)]; [lia|]. eexists _, _. split; [reflexivity|]. split; discriminate.
    - destruct (numeral_head _ _ _ Hi) as (c & t & d & -> & Hd). eexists _, _. split; [reflexivity|]. split; apply (digit_not _ _ _ Hd); reflexivity. }
  destruct Hd as (c & t & E & H1 & H2). rewrite (signed_ok _ _ sg g _ _ c t E H1 H2 A Hs). cbn [bind]. f_equal.
  assert (G : g = 1 \/ g = -1) by (destruct Hs as [[_ ->]|[[_ ->]|[_ ->]]]; auto). rewrite <- (dec10_value g n m l e G).
  destruct G as [-> | ->]; cbn [Z.eqb Pos.eqb fst snd]; f_equal; lia.
Qed.

(** ** The files *)
Lemma int_field_ok data k w z : nth_error data k = Some w -> int_text w z -> int_field data k = Ok z.
Proof. intros H1 H2. unfold int_field, field. rewrite H1. cbn [bind]. exact (int_of_ok _ _ H2). Qed.
Lemma float_field_ok data k w x : nth_error data k = Some w -> number_text w x -> bind (field data k) float_of = Ok x.
Proof. intros H1 H2. unfold field. rewrite H1. cbn [bind]. exact (float_of_ok _ _ H2). Qed.
Definition zero_based (r : rn3 * Z * Z * Cplx) : rn5 * Cplx := let '(rn, i, j, e) := r in ((rn, (i - 1, j - 1)), e).
Lemma hop_line_ok line r : hop_text line r -> hop_line line = Ok (zero_based r).
Proof.
  destruct r as [[[[[a b] c] i] j] [x y]]. intros (w0 & w1 & w2 & w3 & w4 & w5 & w6 & more & Hs & H0 & H1 & H2 & H3 & H4 & H5 & H6).
  unfold hop_line. rewrite (spells_split _ _ Hs).
  rewrite (int_field_ok _ 0 w0 a) by (exact eq_refl || exact H0). rewrite (int_field_ok _ 1 w1 b) by (exact eq_refl || exact H1). rewrite (int_field_ok _ 2 w2 c) by (exact eq_refl || exact H2). rewrite (int_field_ok _ 3 w3 i) by (exact eq_refl || exact H3). rewrite (int_field_ok _ 4 w4 j) by (exact eq_refl || exact H4).
  cbn [bind]. rewrite (float_field_ok _ 5 w5 x) by (exact eq_refl || exact H5). rewrite (float_field_ok _ 6 w6 y) by (exact eq_refl || exact H6). reflexivity.
Qed.
Lemma mapM_Forall2 {A B C} (f : A -> res C) (g : B -> C) (P : A -> B -> Prop) l m :
  (forall a b, P a b -> f a = Ok (g b)) -> Forall2 P l m -> mapM f l = Ok (map g m).
Proof. intros H F. induction F as [|a b l m Hab F IH]; [reflexivity|]. cbn [mapM map]. rewrite (H _ _ Hab). cbn [bind]. rewrite IH. reflexivity. Qed.
Lemma ceil15_ok n k : 15 * (k - 1) < n <= 15 * k -> ceil15 n = k.
Proof.
  intros H. unfold ceil15. assert (E : - n / 15 = - k); [|lia].
  symmetry. apply Z.div_unique with (r := 15 * k - n); lia.
Qed.
Lemma read_hop_ok hr rows : hr_layout hr rows -> read_hop_text hr = Ok (map fst (map zero_based rows), map snd (map zero_based rows)).
Proof.
  intros (title & num & cells & deg & body & n & -> & Hn & Hd & Hb). unfold read_hop_text. cbn [field nth_error bind].
  rewrite (int_line_ok _ _ Hn). cbn [bind]. rewrite (ceil15_ok _ _ Hd).
  assert (E : py_from (title :: num :: cells :: deg ++ body) (3 + Z.of_nat (List.length deg)) = body).
  { unfold py_from. destruct (3 + Z.of_nat (List.length deg) <? 0) eqn:Q; [lia|].
    replace (Z.to_nat (3 + Z.of_nat (List.length deg))) with (S (S (S (List.length deg)))) by lia. cbn [skipn]. rewrite skipn_app, skipn_all, Nat.sub_diag. reflexivity. }
  rewrite E, (mapM_Forall2 hop_line zero_based hop_text body rows hop_line_ok Hb). reflexivity.
Qed.
Lemma read_hop_parsed deg rows : M_wan.read_hop {| degen := deg; rows := rows |} = (map fst (map zero_based rows), map snd (map zero_based rows)).
Proof. unfold M_wan.read_hop. cbn [M_wan.rows]. rewrite !map_map. apply f_equal2; apply map_ext; intros [[[rn i] j] e]; reflexivity. Qed.

Lemma read_vecs_ok vecs vs rest : Forall2 vec_text vecs vs -> read_vecs (List.length vs) (vecs ++ rest) = Ok (vs, rest).
Proof.
  intros F. induction F as [|line v vecs vs Hv F IH]; [reflexivity|]. destruct v as [[a b] c]. destruct Hv as (w0 & w1 & w2 & more & Hs & H0 & H1 & H2).
  cbn [List.length app read_vecs]. rewrite (spells_split _ _ Hs). rewrite (int_field_ok _ 0 w0 a) by (exact eq_refl || exact H0). rewrite (int_field_ok _ 1 w1 b) by (exact eq_refl || exact H1). rewrite (int_field_ok _ 2 w2 c) by (exact eq_refl || exact H2).
  cbn [bind]. rewrite IH. reflexivity.
Qed.
Lemma read_blocks_ok ls bs : ws_body ls bs -> forall fuel d, (List.length ls <= fuel)%nat ->
  read_blocks fuel ls d = Ok (fold_left (fun d b => let '(rn, i, j, vs) := b in aset rn5_eqb d (rn, (i - 1, j - 1)) vs) bs d).
Proof.
  induction 1 as [|first num vecs rest w0 w1 w2 w3 w4 more a b c i j vs bs Hs H0 H1 H2 H3 H4 Hn Hv Hr IH]; intros fuel d Hf; [destruct fuel; reflexivity|].
  cbn [List.length] in Hf. rewrite app_length in Hf. destruct fuel as [|fuel]; [lia|]. cbn [read_blocks].
  rewrite (spells_split _ _ Hs). rewrite (int_field_ok _ 0 w0 a) by (exact eq_refl || exact H0). rewrite (int_field_ok _ 1 w1 b) by (exact eq_refl || exact H1). rewrite (int_field_ok _ 2 w2 c) by (exact eq_refl || exact H2). rewrite (int_field_ok _ 3 w3 i) by (exact eq_refl || exact H3). rewrite (int_field_ok _ 4 w4 j) by (exact eq_refl || exact H4).
  cbn [bind]. rewrite (int_line_ok _ _ Hn). cbn [bind]. rewrite Nat2Z.id, (read_vecs_ok _ _ _ Hv). cbn [bind]. rewrite IH by lia. reflexivity.
Qed.
Lemma read_wsvec_ok f bs : ws_layout f bs -> read_wsvec_text f = Ok (M_wan.read_wsvec bs).
Proof. intros (title & ls & -> & H). unfold read_wsvec_text. rewrite (read_blocks_ok _ _ H) by lia. reflexivity. Qed.

Lemma floats3 x y z v : number_text x (fst (fst v)) -> number_text y (snd (fst v)) -> number_text z (snd v) -> floats [x; y; z] = Ok (unvec v).
Proof. intros H1 H2 H3. unfold floats. cbn [mapM]. rewrite (float_of_ok _ _ H1), (float_of_ok _ _ H2), (float_of_ok _ _ H3). destruct v as [[p q] r]. reflexivity. Qed.
Lemma rect3 (vs : list V) : rect (map unvec vs) = true.
Proof.
  destruct vs as [|v vs]; [reflexivity|]. cbn [map rect]. apply forallb_forall. intros l Hl. apply in_map_iff in Hl as (u & <- & _). destruct u as [[? ?] ?], v as [[? ?] ?]. reflexivity.
Qed.
Lemma vec3_ok (vs : list V) : mapM vec3 (map unvec vs) = Ok vs.
Proof. induction vs as [|[[x y] z] vs IH]; [reflexivity|]. cbn [map mapM unvec vec3 bind]. rewrite IH. reflexivity. Qed.
Lemma xyz_body_ok ls vs : xyz_body ls vs -> exists l, mapM centre ls = Ok l /\ concat l = map unvec vs.
Proof.
  induction 1 as [|line x y z v ls vs Hs H1 H2 H3 Hb (l & El & Ec)|line w ws ls vs Hs Hw Hb (l & El & Ec)].
  - exists []. auto.
  - exists ([unvec v] :: l). split; [|cbn; f_equal; exact Ec]. cbn [mapM]. unfold centre at 1. rewrite (spells_split _ _ Hs). cbn [field nth_error bind tl]. rewrite String.eqb_refl.
    rewrite (floats3 _ _ _ _ H1 H2 H3). cbn [bind]. rewrite El. reflexivity.
  - exists ([] :: l). split; [|exact Ec]. cbn [mapM]. unfold centre at 1. rewrite (spells_split _ _ Hs). cbn [field nth_error bind tl]. apply String.eqb_neq in Hw. rewrite Hw. cbn [bind]. rewrite El. reflexivity.
Qed.
Lemma read_orb_pos_ok xyz vs : xyz_layout xyz vs -> read_orb_pos xyz = Ok (map unvec vs).
Proof.
  intros (h1 & h2 & ls & -> & H). unfold read_orb_pos. cbn [skipn]. destruct (xyz_body_ok _ _ H) as (l & -> & E). cbn [bind]. rewrite E. unfold array2. rewrite rect3. reflexivity.
Qed.

(** *** The lattice vectors *)
Lemma prefix_app k t : prefix k (k +++ t) = true.
Proof. induction k as [|c k IH]; [destruct t; reflexivity|]. cbn. destruct (ascii_dec c c); [exact IH|congruence]. Qed.
Lemma prefix_inv k s : prefix k s = true -> exists t, s = k +++ t.
Proof.
  revert s. induction k as [|c k IH]; intros s H; [exists s; reflexivity|]. destruct s as [|d s]; [discriminate|]. cbn in H. destruct (ascii_dec c d); [|discriminate]. subst d. destruct (IH s H) as (t & ->). exists t. reflexivity.
Qed.
Lemma lstrip_inv s : exists g, blank g /\ s = g +++ lstrip s.
Proof.
  induction s as [|c s (g & Hg & E)]; [exists EmptyString; split; [constructor|reflexivity]|]. cbn [lstrip]. destruct (space c) eqn:Q.
  - exists (String c g). split; [constructor; [apply space_spec; exact Q|exact Hg]|]. cbn. f_equal. exact E.
  - exists EmptyString. split; [constructor|reflexivity].
Qed.
Lemma keyword_ok k line : (exists c t, k = String c t /\ space c = false) -> prefix k (lstrip line) = true <-> keyword k line.
Proof.
  intros (c & u & Ek & Hc). split.
  - intros H. destruct (prefix_inv _ _ H) as (t & E). destruct (lstrip_inv line) as (g & Hg & El). exists g, t. split; [exact Hg|]. rewrite <- E. exact El.
  - intros (g & t & Hg & ->). rewrite lstrip_gap by exact Hg. subst k. cbn [String.append lstrip]. rewrite Hc. exact (prefix_app (String c u) t).
Qed.
Lemma begin_ok line : prefix "begin unit_cell_cart" (lstrip line) = true <-> keyword "begin unit_cell_cart" line.
Proof. apply keyword_ok. eexists _, _. split; reflexivity. Qed.
Lemma end_ok line : prefix "end unit_cell_cart" (lstrip line) = true <-> keyword "end unit_cell_cart" line.
Proof. apply keyword_ok. eexists _, _. split; reflexivity. Qed.
Lemma keyword_disjoint line : keyword "begin unit_cell_cart" line -> keyword "end unit_cell_cart" line -> False.
Proof.
  intros H1 H2. apply begin_ok in H1. apply end_ok in H2. apply prefix_inv in H1 as (t & H1). rewrite H1 in H2. cbn in H2. discriminate.
Qed.
Definition plain (l : string) : Prop := ~ keyword "begin unit_cell_cart" l /\ ~ keyword "end unit_cell_cart" l.
Lemma locate_plain st n l : plain l -> locate st (n, l) = st.
Proof.
  intros (H1 & H2). unfold locate. destruct (prefix "begin unit_cell_cart" (lstrip l)) eqn:E1; [apply begin_ok in E1; contradiction|].
  destruct (prefix "end unit_cell_cart" (lstrip l)) eqn:E2; [apply end_ok in E2; contradiction|]. reflexivity.
Qed.
Lemma locate_plains ls : Forall plain ls -> forall n st, fold_left locate (combine (seq n (List.length ls)) ls) st = st.
Proof. induction 1 as [|l ls H F IH]; intros n st; [reflexivity|]. cbn [List.length seq combine fold_left]. rewrite locate_plain by exact H. apply IH. Qed.
Lemma locate_begin st n l : keyword "begin unit_cell_cart" l -> locate st (n, l) = (n, snd st).
Proof. intros H. unfold locate. apply begin_ok in H. rewrite H. reflexivity. Qed.
Lemma locate_end st n l : keyword "end unit_cell_cart" l -> locate st (n, l) = (fst st, n).
Proof.
  intros H. unfold locate. destruct (prefix "begin unit_cell_cart" (lstrip l)) eqn:E1; [apply begin_ok in E1; exfalso; exact (keyword_disjoint l E1 H)|]. apply end_ok in H. rewrite H. reflexivity.
Qed.
Lemma combine_seq_app {A} (l m : list A) n : combine (seq n (List.length (l ++ m))) (l ++ m) = combine (seq n (List.length l)) l ++ combine (seq (n + List.length l) (List.length m)) m.
Proof.
  revert n. induction l as [|x l IH]; intros n; [cbn; rewrite Nat.add_0_r; reflexivity|]. cbn [app List.length seq combine]. rewrite IH. f_equal. f_equal. f_equal. f_equal. lia.
Qed.
Lemma lat_block_ok pre b mid e post : Forall plain (pre ++ post) -> Forall plain mid -> keyword "begin unit_cell_cart" b -> keyword "end unit_cell_cart" e ->
  lat_block (pre ++ b :: mid ++ e :: post) = b :: mid ++ [e].
Proof.
  intros Hp Hm Hb He. apply Forall_app in Hp as [Hp Hq]. unfold lat_block.
  rewrite combine_seq_app, fold_left_app, (locate_plains pre Hp). cbn [Nat.add List.length seq combine fold_left]. rewrite (locate_begin _ _ _ Hb).
  rewrite combine_seq_app, fold_left_app, (locate_plains mid Hm). cbn [List.length seq combine fold_left]. rewrite (locate_end _ _ _ He), (locate_plains post Hq). cbn [fst snd].
  rewrite skipn_app, skipn_all, Nat.sub_diag. cbn [app skipn].
  match goal with |- firstn ?n _ = _ => replace n with (S (List.length (mid ++ [e]))) by (rewrite app_length; cbn [List.length]; lia) end.
  cbn [firstn]. f_equal. change (e :: post) with ([e] ++ post). rewrite app_assoc, firstn_app, Nat.sub_diag, firstn_all. apply app_nil_r.
Qed.
Lemma begin_split l : keyword "begin unit_cell_cart" l -> exists r, split l = "begin"%string :: r.
Proof.
  intros (g & t & Hg & ->). rewrite split_gap by exact Hg. change ("begin unit_cell_cart" +++ t) with ("begin" +++ String " " ("unit_cell_cart" +++ t)).
  rewrite split_word; [eexists; reflexivity| |right; eexists _, _; split; [reflexivity|apply space_spec; reflexivity]].
  split; [discriminate|]. cbn. repeat constructor; apply visible; reflexivity.
Qed.
Lemma end_split l : keyword "end unit_cell_cart" l -> exists r, split l = "end"%string :: r.
Proof.
  intros (g & t & Hg & ->). rewrite split_gap by exact Hg. change ("end unit_cell_cart" +++ t) with ("end" +++ String " " ("unit_cell_cart" +++ t)).
  rewrite split_word; [eexists; reflexivity| |right; eexists _, _; split; [reflexivity|apply space_spec; reflexivity]].
  split; [discriminate|]. cbn. repeat constructor; apply visible; reflexivity.
Qed.
Lemma row_plain l v : row_text l v -> plain l.
Proof.
  intros (x & y & z & Hs & Hx & _). apply spells_split in Hs. apply float_of_ok in Hx.
  split; intros H; [apply begin_split in H|apply end_split in H]; destruct H as (r & E); rewrite E in Hs; injection Hs as <- _; discriminate Hx.
Qed.
Lemma padded_split l w : word w -> padded l w -> split l = [w].
Proof.
  intros Hw (g & h & Hg & Hh & ->). rewrite split_gap by exact Hg. rewrite split_word; [rewrite split_blank by exact Hh; reflexivity|exact Hw|].
  destruct h as [|b h]; [left; reflexivity|]. right. exists b, h. split; [reflexivity|]. inversion Hh; assumption.
Qed.
Lemma unit_word w : (w = "Ang" \/ w = "ang" \/ w = "Bohr" \/ w = "bohr")%string -> word w.
Proof. intros [->|[->|[->| ->]]]; (split; [discriminate|]; cbn; repeat constructor; apply visible; reflexivity). Qed.
Lemma unit_plain l w : (w = "Ang" \/ w = "ang" \/ w = "Bohr" \/ w = "bohr")%string -> padded l w -> plain l.
Proof.
  intros Hw Hp. pose proof (padded_split l w (unit_word w Hw) Hp) as Hs.
  split; intros H; [apply begin_split in H|apply end_split in H]; destruct H as (r & E); rewrite E in Hs; injection Hs as <- _; intuition discriminate.
Qed.
Lemma row_ok l v : row_text l v -> floats (split l) = Ok (unvec v).
Proof. intros (x & y & z & Hs & H1 & H2 & H3). rewrite (spells_split _ _ Hs). exact (floats3 _ _ _ _ H1 H2 H3). Qed.
Lemma read_lat_ok win a0 a1 a2 u : win_layout BOHR2ANG win a0 a1 a2 u ->
  read_lat_vec win = Ok (map (map (fun x => x * u)%R) (map unvec [a0; a1; a2])).
Proof.
  intros (pre & b & us & l0 & l1 & l2 & e & post & -> & Hb & He & Hu & H0 & H1 & H2 & Hp).
  assert (One : map (map (fun x => x * 1)%R) (map unvec [a0; a1; a2]) = map unvec [a0; a1; a2]).
  { rewrite <- (map_id (map unvec [a0; a1; a2])) at 2. apply map_ext. intros l. rewrite <- (map_id l) at 2. apply map_ext. intros x. ring. }
  assert (Hus : Forall plain us).
  { destruct Hu as [[-> _]|(l & w & -> & Hl & Hw)]; [constructor|]. constructor; [|constructor]. apply (unit_plain l w); [tauto|exact Hl]. }
  assert (Blk : lat_block (pre ++ b :: us ++ l0 :: l1 :: l2 :: e :: post) = b :: (us ++ [l0; l1; l2]) ++ [e]).
  { rewrite <- (lat_block_ok pre b (us ++ [l0; l1; l2]) e post); [rewrite <- app_assoc; reflexivity|exact Hp| |exact Hb|exact He].
    apply Forall_app. split; [exact Hus|]. repeat constructor; eauto using row_plain; eapply row_plain; eassumption. }
  unfold read_lat_vec. rewrite Blk.
  destruct Hu as [[-> ->]|(l & w & -> & Hl & Hw)].
  - cbn [app lat_raw List.length Nat.eqb removelast skipn bind mapM]. rewrite (row_ok _ _ H0), (row_ok _ _ H1), (row_ok _ _ H2). cbn [bind].
    change [unvec a0; unvec a1; unvec a2] with (map unvec [a0; a1; a2]). unfold array2. rewrite rect3, One. reflexivity.
  - assert (W : word w) by (apply unit_word; tauto).
    cbn [app lat_raw List.length Nat.eqb nth_error removelast skipn bind mapM]. rewrite (strip_padded l w W Hl), (row_ok _ _ H0), (row_ok _ _ H1), (row_ok _ _ H2). cbn [bind].
    change [unvec a0; unvec a1; unvec a2] with (map unvec [a0; a1; a2]). unfold array2. rewrite rect3. cbn [bind].
    destruct Hw as [[[-> | ->] ->]|[[-> | ->] ->]]; [rewrite One; reflexivity|rewrite One; reflexivity|reflexivity|reflexivity].
Qed.

(** ** The other way: only such texts are read *)
Lemma spells_gap g s l : blank g -> spells s l -> spells (g +++ s) l.
Proof.
  intros Hg H. assert (App : forall h, blank h -> blank (g +++ h)) by (intros h Hh; unfold blank in *; clear -Hg Hh; induction g as [|c g IH]; [exact Hh|]; cbn in *; inversion Hg; subst; constructor; auto).
  destruct H as [h Hh|h w Hh Hw|h w b s ws Hh Hw Hb Hs].
  - constructor. auto.
  - rewrite <- append_assoc. constructor; auto.
  - rewrite <- append_assoc. constructor; auto.
Qed.
Lemma blank1 c : blank_char c -> blank (String c EmptyString).
Proof. intros H. constructor; [exact H|constructor]. Qed.
Lemma spells_grow c d r w l : ~ blank_char c -> ~ blank_char d -> spells (String d r) (w :: l) -> spells (String c (String d r)) (String c w :: l).
Proof.
  intros Hc Hd H. inversion H as [|g w' Hg Hw E|g w' b s ws Hg Hw Hb Hs E]; subst.
  - destruct g as [|x g]; [|exfalso; cbn in E; injection E as -> _; inversion Hg; contradiction]. cbn in E. subst w.
    apply (sp_last EmptyString (String c (String d r))); [constructor|]. destruct Hw as [_ Hw]. split; [discriminate|]. constructor; [exact Hc|exact Hw].
  - destruct g as [|x g]; [|exfalso; cbn in E; injection E as -> _; inversion Hg; contradiction]. cbn [String.append] in E. 
    apply (sp_more EmptyString (String c w) b s l); [constructor| |exact Hb|exact Hs]. destruct Hw as [_ Hw]. split; [discriminate|]. constructor; [exact Hc|exact Hw].
Qed.
Lemma not_space c : space c = false -> ~ blank_char c.
Proof. exact (visible c). Qed.
Lemma split_spells_le n : forall s, (String.length s <= n)%nat -> spells s (split s).
Proof.
  induction n as [|n IH]; intros s Hn; destruct s as [|c r]; cbn [String.length] in Hn; try lia; try (constructor; constructor). cbn [split].
  destruct (space c) eqn:Ec.
  - apply (spells_gap (String c EmptyString)); [apply blank1; apply space_spec; exact Ec|]. apply IH. lia.
  - apply not_space in Ec. destruct r as [|d r].
    + apply (sp_last EmptyString); [constructor|]. split; [discriminate|]. constructor; [exact Ec|constructor].
    + cbn [String.length] in Hn. destruct (space d) eqn:Ed.
      * cbn [split]. rewrite Ed. apply (sp_more EmptyString (String c EmptyString) d r); [constructor| |apply space_spec; exact Ed|apply IH; lia].
        split; [discriminate|]. constructor; [exact Ec|constructor].
      * apply not_space in Ed. pose proof (IH (String d r) ltac:(cbn; lia)) as H. destruct (split (String d r)) as [|w l] eqn:E.
        -- exfalso. inversion H as [g Hg| |]; subst. inversion Hg; contradiction.
        -- apply spells_grow; assumption.
Qed.
Lemma split_spells s : spells s (split s).
Proof. exact (split_spells_le (String.length s) s (le_n _)). Qed.

Lemma digit_inv c d : digit c = Some d -> digit_char c d.
Proof.
  unfold digit, digit_char. set (n := nat_of_ascii c). clearbody n. destruct ((48 <=? n) && (n <=? 57))%nat eqn:E; [|discriminate].
  rewrite andb_true_iff, !Nat.leb_le in E. intros [= <-]. lia.
Qed.
Lemma numeral_cons c d s n k : digit_char c d -> numeral s n k -> numeral (String c s) (d * 10 ^ Z.of_nat k + n) (S k).
Proof.
  intros Hc H. induction H as [|s n k x e H IH Hx].
  - replace (d * 10 ^ Z.of_nat 0 + 0) with (10 * 0 + d) by (cbn; lia). apply (num_snoc EmptyString 0 0 c d num_nil Hc).
  - replace (d * 10 ^ Z.of_nat (S k) + (10 * n + e)) with (10 * (d * 10 ^ Z.of_nat k + n) + e) by (rewrite Nat2Z.inj_succ, Z.pow_succ_r by lia; lia).
    exact (num_snoc (String c s) _ _ x e IH Hx).
Qed.
Lemma span_inv s : forall acc j m n r, span_digits acc j s = (m, n, r) ->
  exists ds v k, s = ds +++ r /\ numeral ds v k /\ m = acc * 10 ^ Z.of_nat k + v /\ n = (j + k)%nat.
Proof.
  induction s as [|c s IH]; intros acc j m n r H; cbn [span_digits] in H.
  - injection H as <- <- <-. exists EmptyString, 0, O. repeat split; [constructor| |]; cbn; lia.
  - destruct (digit c) as [d|] eqn:Ed.
    + apply IH in H as (ds & v & k & -> & Hn & -> & ->). apply digit_inv in Ed. exists (String c ds), (d * 10 ^ Z.of_nat k + v), (S k).
      split; [reflexivity|]. split; [exact (numeral_cons c d ds v k Ed Hn)|]. split; [rewrite Nat2Z.inj_succ, Z.pow_succ_r by lia; lia|lia].
    + injection H as <- <- <-. exists EmptyString, 0, O. repeat split; [constructor| |]; cbn; lia.
Qed.
Lemma loop_inv s : forall acc z, digits_loop acc s = Ok z -> exists v, numeral s v (String.length s) /\ z = acc * 10 ^ Z.of_nat (String.length s) + v.
Proof.
  induction s as [|c s IH]; intros acc z H; cbn [digits_loop] in H.
  - injection H as <-. exists 0. split; [constructor|cbn; lia].
  - destruct (digit c) as [d|] eqn:Ed; [|discriminate]. apply IH in H as (v & Hn & ->). apply digit_inv in Ed. exists (d * 10 ^ Z.of_nat (String.length s) + v).
    split; [exact (numeral_cons c d s v _ Ed Hn)|]. cbn [String.length]. rewrite Nat2Z.inj_succ, Z.pow_succ_r by lia. lia.
Qed.
Lemma digits_inv s z : digits s = Ok z -> exists k, numeral s z (S k).
Proof.
  unfold digits. destruct s as [|c s]; [discriminate|]. intros H. apply loop_inv in H as (v & Hn & ->). exists (String.length s). replace (0 * _ + v) with v by lia. exact Hn.
Qed.
Lemma signed_inv {A} (neg : A -> A) f s x : signed neg f s = Ok x -> exists sg g t y, sign_text sg g /\ s = sg +++ t /\ f t = Ok y /\ x = if g =? 1 then y else neg y.
Proof.
  intros H. assert (D : (exists r, s = String "-" r) \/ (exists r, s = String "+" r) \/ signed neg f s = f s).
  { destruct s as [|[b0 b1 b2 b3 b4 b5 b6 b7] r]; [auto|]. destruct b0, b1, b2, b3, b4, b5, b6, b7; auto; [right; left|left]; eexists; reflexivity. }
  destruct D as [(r & ->)|[(r & ->)|E]].
  - cbn [signed] in H. destruct (f r) as [y|] eqn:Ef; [|discriminate]. injection H as <-. exists "-"%string, (-1), r, y. unfold sign_text. auto 7.
  - cbn [signed] in H. exists "+"%string, 1, r, x. unfold sign_text. auto 7.
  - rewrite E in H. exists ""%string, 1, s, x. unfold sign_text. auto 7.
Qed.
Lemma signed_digits_inv s z : signed Z.opp digits s = Ok z -> int_text s z.
Proof.
  intros H. apply signed_inv in H as (sg & g & t & y & Hs & -> & Hd & ->). apply digits_inv in Hd as (k & Hn). exists sg, g, t, y, k. repeat split; try assumption.
  destruct Hs as [[_ ->]|[[_ ->]|[_ ->]]]; cbn [Z.eqb Pos.eqb]; lia.
Qed.
Lemma rstrip_inv s : exists h, blank h /\ s = rstrip s +++ h.
Proof.
  induction s as [|c s (h & Hh & E)]; [exists EmptyString; split; [constructor|reflexivity]|]. cbn [rstrip]. destruct (rstrip s) as [|d t] eqn:Es.
  - cbn in E. subst h. destruct (space c) eqn:Ec.
    + exists (String c s). split; [constructor; [apply space_spec; exact Ec|exact Hh]|reflexivity].
    + exists s. split; [exact Hh|reflexivity].
  - exists h. split; [exact Hh|]. cbn in *. f_equal. exact E.
Qed.
Lemma strip_inv s : padded s (strip s).
Proof.
  unfold strip. destruct (lstrip_inv s) as (g & Hg & E). destruct (rstrip_inv (lstrip s)) as (h & Hh & E'). exists g, h. split; [exact Hg|]. split; [exact Hh|]. rewrite <- E'. exact E.
Qed.
Lemma int_of_inv s z : int_of s = Ok z -> int_line s z.
Proof. unfold int_of. intros H. exists (strip s). split; [exact (strip_inv s)|exact (signed_digits_inv _ _ H)]. Qed.
Lemma exponent_inv s e : exponent s = Ok e -> exponent_text s e.
Proof.
  destruct s as [|c s]; cbn [exponent]; [intros [= <-]; left; auto|]. destruct ((c =? "e") || (c =? "E"))%char eqn:Ec; [|discriminate]. intros H. right. exists c, s.
  split; [|split; [reflexivity|exact (signed_digits_inv _ _ H)]]. apply orb_true_iff in Ec as [Ec|Ec]; apply Ascii.eqb_eq in Ec; auto.
Qed.
Lemma float_abs_inv s p : float_abs s = Ok p -> exists ip n k f m l ex e, numeral ip n k /\ fraction_text f m l /\ exponent_text ex e /\ (0 < k + l)%nat
  /\ s = ip +++ f +++ ex /\ p = (n * 10 ^ Z.of_nat l + m, e - Z.of_nat l).
Proof.
  unfold float_abs. destruct (span_digits 0 0 s) as [[v n] r] eqn:E1. apply span_inv in E1 as (ip & w & k & -> & Hi & -> & ->). replace (0 * 10 ^ Z.of_nat k + w) with w by lia. cbn [Nat.add].
  assert (D : (exists r', r = String "." r') \/ match r with String "." r' => span_digits w 0 r' | _ => (w, O, r) end%char = (w, O, r)).
  { destruct r as [|[b0 b1 b2 b3 b4 b5 b6 b7] r']; [auto|]. destruct b0, b1, b2, b3, b4, b5, b6, b7; auto. left. eexists. reflexivity. }
  destruct D as [(r' & ->)|D].
  - destruct (span_digits w 0 r') as [[m l] t] eqn:E2. apply span_inv in E2 as (fp & q & l' & -> & Hf & -> & ->). cbn [Nat.add].
    destruct (k + l' =? 0)%nat eqn:Q; [discriminate|]. apply Nat.eqb_neq in Q. destruct (exponent t) as [e|] eqn:Ee; [|discriminate]. cbn [bind]. intros [= <-]. apply exponent_inv in Ee.
    exists ip, w, k, (String "." fp), q, l', t, e. split; [exact Hi|]. split; [right; exists fp; auto|]. split; [exact Ee|]. split; [lia|]. split; reflexivity.
  - rewrite D. destruct (k + 0 =? 0)%nat eqn:Q; [discriminate|]. apply Nat.eqb_neq in Q. destruct (exponent r) as [e|] eqn:Ee; [|discriminate]. cbn [bind]. intros [= <-]. apply exponent_inv in Ee.
    exists ip, w, k, EmptyString, 0, O, r, e. split; [exact Hi|]. split; [left; auto|]. split; [exact Ee|]. split; [lia|]. split; [reflexivity|]. f_equal; cbn; lia.
Qed.
Lemma number_of s p : signed (fun p => (- fst p, snd p)) float_abs s = Ok p -> number_text s (dec10 (fst p) (snd p)).
Proof.
  intros E. apply signed_inv in E as (sg & g & t & y & Hs & Et & Hf & ->). apply float_abs_inv in Hf as (ip & n & k & f & m & l & ex & e & Hi & Hf & He & Hk & -> & ->).
  exists sg, g, ip, n, k, f, m, l, ex, e. repeat split; try assumption. assert (G : g = 1 \/ g = -1) by (destruct Hs as [[_ ->]|[[_ ->]|[_ ->]]]; auto). rewrite <- (dec10_value g n m l e G).
  destruct G as [-> | ->]; cbn [Z.eqb Pos.eqb fst snd]; f_equal; lia.
Qed.
Lemma float_of_inv s x : float_of s = Ok x -> exists t, padded s t /\ number_text t x.
Proof.
  unfold float_of. destruct (signed _ float_abs (strip s)) as [p|] eqn:E; [|discriminate]. cbn [bind]. intros [= <-]. exists (strip s). split; [exact (strip_inv s)|exact (number_of _ _ E)].
Qed.
