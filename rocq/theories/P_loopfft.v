(** C97: one stage of the Fourier transform in parallel. *)
From Coq Require Import String Permutation List.
From Verif Require Import Prelude Vec Cx L_base M_omp L_omp M_loops S_loops L_loops.
Import ListNotations.
Local Open Scope string_scope.
Local Open Scope list_scope.
Local Open Scope Z_scope.

Section Loops.
  Context {E : Type} {SE : Scalar E}.
  Notation mem := (mem E).
  Ltac open := match goal with |- safe ?a ?b ?c ?d ?p ?o ?q => let p' := eval red in p in change (safe a b c d p' o q) end.

  (** ** Fourier transform: one stage *)
  Definition own_fft (c : Z) (x : loc) : option Z :=
    match x with Arr a [p] => if String.eqb a "x" then Some ((p - 1) mod c + 1) else None | _ => None end.
  Lemma mod_half c p : 0 < c -> (p - 1) mod c = if (p - 1) mod (2 * c) <? c then (p - 1) mod (2 * c) else (p - 1) mod (2 * c) - c.
  Proof.
    intro Hc. pose proof (Z.div_mod (p - 1) (2 * c) ltac:(lia)) as H. pose proof (Z.mod_pos_bound (p - 1) (2 * c) ltac:(lia)) as Hb.
    set (q := (p - 1) / (2 * c)) in *. set (r := (p - 1) mod (2 * c)) in *. symmetry. destruct (Z.ltb_spec r c).
    - apply (Z.mod_unique (p - 1) c (2 * q)); [left; lia|]. lia.
    - apply (Z.mod_unique (p - 1) c (2 * q + 1)); [left; lia|]. lia.
  Qed.
  Theorem C97_fft tw (m : mem) K : let c := int m "ncur" in 0 < c -> 0 <= K -> int m "ntmp" = 2 * c -> int m "n" = 2 * c * K ->
    loop_gives fft_private "j" (fft_body tw) 1 c m (only "x" (vec 1 (int m "n") (butterfly tw m c))).
  Proof.
    intros c Hc HK Hnt Hn. apply (loop_rule _ _ _ _ _ _ (own_fft c)); [reflexivity| | | |].
    - intros [x|a idx]; [reflexivity|cbn; congruence].
    - intros [x|a idx]; [cbn; congruence|eauto].
    - intros j Hj. step. open. steps. fold (int m "n") (int m "ntmp"). rewrite Hnt. unfold do_by.
      assert (HI : Z.to_nat ((int m "n" - j + 2 * c) / (2 * c)) = Z.to_nat K).
      { f_equal. rewrite Hn. symmetry. apply (Z.div_unique _ _ _ (2 * c - j)); [left; lia|]. lia. }
      rewrite HI. clear HI.
      pose (mine := fun t p => (1 <=? p) && ((p - 1) / (2 * c) <? t) && ((p - 1) mod c =? j - 1)).
      apply (safe_by _ _ _ _ "i" j (2 * c) _ _ (fun t o => o (Var "j") = Some (I j) /\
        forall p, o (Arr "x" [p]) = if mine t p then Some (N (butterfly tw m c p)) else None)); [reflexivity| | |].
      + split; [look|]. intro p. replace (mine 0 p) with false; [look|]. symmetry. unfold mine. destruct (Z.leb_spec 1 p); [|reflexivity].
        destruct (Z.ltb_spec ((p - 1) / (2 * c)) 0) as [Hlt|]; [|reflexivity]. pose proof (Z.div_pos (p - 1) (2 * c) ltac:(lia) ltac:(lia)). lia.
      + intros t o Ht [h1 h2]. set (i := j + t * (2 * c)).
        assert (Hd1 : (i - 1) / (2 * c) = t) by (symmetry; apply (Z.div_unique _ _ _ (j - 1)); [left; lia|unfold i; lia]).
        assert (Hm1 : (i - 1) mod (2 * c) = j - 1) by (symmetry; apply (Z.mod_unique _ _ t); [left; lia|unfold i; lia]).
        assert (Hd2 : (i + c - 1) / (2 * c) = t) by (symmetry; apply (Z.div_unique _ _ _ (j - 1 + c)); [left; lia|unfold i; lia]).
        assert (Hm2 : (i + c - 1) mod (2 * c) = j - 1 + c) by (symmetry; apply (Z.mod_unique _ _ t); [left; lia|unfold i; lia]).
        assert (Ho1 : own_fft c (Arr "x" [i]) = Some j).
        { cbn [own_fft String.eqb Ascii.eqb Bool.eqb]. rewrite (mod_half c i Hc), Hm1. rewrite (proj2 (Z.ltb_lt _ _)) by lia. f_equal. lia. }
        assert (Ho2 : own_fft c (Arr "x" [i + c]) = Some j).
        { cbn [own_fft String.eqb Ascii.eqb Bool.eqb]. rewrite (mod_half c (i + c) Hc), Hm2. rewrite (proj2 (Z.ltb_ge _ _)) by lia. f_equal. lia. }
        assert (Hx1 : o (Arr "x" [i]) = None) by (rewrite h2; unfold mine; rewrite Hd1, Z.ltb_irrefl, andb_false_r; reflexivity).
        assert (Hx2 : o (Arr "x" [i + c]) = None) by (rewrite h2; unfold mine; rewrite Hd2, Z.ltb_irrefl, andb_false_r; reflexivity).
        assert (Hi1 : 1 <= i) by (unfold i; nia).
        clearbody i. steps. fold (int m "ncur"). change (int m "ncur") with c.
        apply get_old; [reflexivity|exact Ho1|look|]. steps. apply get_old; [reflexivity|exact Ho2|look|]. steps.
        apply get_old; [reflexivity|exact Ho1|look|]. steps. apply get_old; [reflexivity|exact Ho2|look|]. steps.
        apply put_own; [exact Ho1|]. steps. apply put_own; [exact Ho2|].
        split; [look|]. intro p. destruct (Z.eq_dec p (i + c)) as [->|Hp2]; [|destruct (Z.eq_dec p i) as [->|Hp1]].
        * rewrite upd_same. assert (HM : mine (t + 1) (i + c) = true).
          { unfold mine. rewrite Hd2, (mod_half c (i + c) Hc), Hm2. rewrite (proj2 (Z.ltb_ge (j - 1 + c) c)) by lia.
            rewrite (proj2 (Z.leb_le _ _)), (proj2 (Z.ltb_lt _ _)), (proj2 (Z.eqb_eq _ _)) by lia. reflexivity. }
          rewrite HM. unfold butterfly. rewrite Hm2. rewrite (proj2 (Z.ltb_ge (j - 1 + c) c)) by lia. replace (i + c - c) with i by lia. replace (j - 1 + c - c + 1) with j by lia. reflexivity.
        * rewrite upd_other by (intro Q; injection Q; lia). rewrite upd_same. assert (HM : mine (t + 1) i = true).
          { unfold mine. rewrite Hd1, (mod_half c i Hc), Hm1. rewrite (proj2 (Z.ltb_lt (j - 1) c)) by lia.
            rewrite (proj2 (Z.leb_le _ _)), (proj2 (Z.ltb_lt _ _)), (proj2 (Z.eqb_eq _ _)) by lia. reflexivity. }
          rewrite HM. unfold butterfly. rewrite Hm1. rewrite (proj2 (Z.ltb_lt (j - 1) c)) by lia. reflexivity.
        * rewrite !upd_other by (first [discriminate|intro Q; injection Q; lia]). rewrite h2.
          replace (mine (t + 1) p) with (mine t p); [reflexivity|]. unfold mine. destruct (Z.leb_spec 1 p) as [H1p|]; [|reflexivity]. cbn [andb].
          destruct (Z.eqb_spec ((p - 1) mod c) (j - 1)) as [Hq|]; [|rewrite !andb_false_r; reflexivity]. rewrite !andb_true_r.
          destruct (Z.ltb_spec ((p - 1) / (2 * c)) t) as [Hlt|Hlt], (Z.ltb_spec ((p - 1) / (2 * c)) (t + 1)) as [Hlt'|Hlt']; try reflexivity; [lia|].
          exfalso. assert (He : (p - 1) / (2 * c) = t) by lia. pose proof (Z.div_mod (p - 1) (2 * c) ltac:(lia)) as Hdm. rewrite He in Hdm.
          pose proof (Z.div_mod (i - 1) (2 * c) ltac:(lia)) as Hdi. rewrite Hd1, Hm1 in Hdi.
          rewrite (mod_half c p Hc) in Hq. destruct (Z.ltb_spec ((p - 1) mod (2 * c)) c); [apply Hp1|apply Hp2]; lia.
      + intros o k [h1 h2] a idx. unfold only. cbn [own_fft]. destruct idx as [|p [|? ?]]; try discriminate.
        destruct (String.eqb_spec a "x") as [->|]; [|discriminate]. intro Q. injection Q as Q. rewrite upd_other by discriminate. rewrite h2. cbn [vec].
        replace (mine (Z.of_nat (Z.to_nat K)) p) with (within 1 (int m "n") p); [destruct (within 1 (int m "n") p); reflexivity|].
        unfold mine, within. rewrite (proj2 (Z.eqb_eq ((p - 1) mod c) (j - 1))) by lia. rewrite andb_true_r. destruct (Z.leb_spec 1 p); [|reflexivity]. cbn [andb].
        rewrite Z2Nat.id by exact HK. rewrite Hn. pose proof (Z.div_mod (p - 1) (2 * c) ltac:(lia)) as Hdm. pose proof (Z.mod_pos_bound (p - 1) (2 * c) ltac:(lia)).
        destruct (Z.leb_spec p (2 * c * K)), (Z.ltb_spec ((p - 1) / (2 * c)) K); try reflexivity; exfalso; nia.
    - intros a idx. unfold only. destruct (String.eqb_spec a "x") as [->|]; [|congruence]. destruct idx as [|p [|? ?]]; cbn [vec]; try congruence. intros _.
      cbn [own_fft String.eqb Ascii.eqb Bool.eqb]. eexists. split; [reflexivity|]. pose proof (Z.mod_pos_bound (p - 1) c Hc). lia.
  Qed.
End Loops.

(** Two threads, a stage of length 4 with butterflies at distance 2 on
    (1, 10, 100, 1000): sums 101 and 1010, differences -99 and -990. *)
Definition ex_fft : mem Z := fun x =>
  match x with
  | Var "ncur" => I 2 | Var "ntmp" => I 4 | Var "n" => I 4
  | Arr _ [p] => N (10 ^ (p - 1))
  | _ => N 0
  end.
Example C97_example_fft :
  let s := run fft_private (List.concat (repeat [0%nat; 1%nat] 60)) (launch "j" (fft_body (fun _ _ j => j)) [[2]; [1]] [fun _ => I 99; fun _ => I 99] ex_fft) in
  finished s = true /\ map (fun p => fst s (Arr "x" [p])) [1; 2; 3; 4] = [N 101; N 1010; N (-99); N (-990 * 2)].
Proof. vm_compute. repeat split. Qed.
Print Assumptions C97_fft.
