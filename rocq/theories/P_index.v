(** Properties C07-C10: index conversion.  Specification: S_index.v. *)
From Verif Require Import Prelude M_hop M_index S_index L_index.

(** No vacancies: orb_id_pc is the ordered enumeration of all sites and the
    two conversions are inverse bijections onto 0..num_orb_sc-1. *)
Theorem C07_bijection :
  forall (dim : Z * Z * Z) (n : Z), positive dim -> 0 <= n ->
  enumerates dim n (fun _ => False) (o_orb_id_pc (oset0 dim n)) /\
  (let '(na, nb, nc) := dim in num_orb_sc (oset0 dim n) = na * nb * nc * n) /\
  (forall t, in_cell dim n t ->
     exists k, 0 <= k < num_orb_sc (oset0 dim n) /\
       orb_id_pc2sc (oset0 dim n) (row t) = Ok k /\ orb_id_sc2pc (oset0 dim n) k = Ok t) /\
  (forall k, 0 <= k < num_orb_sc (oset0 dim n) ->
     exists t, in_cell dim n t /\
       orb_id_sc2pc (oset0 dim n) k = Ok t /\ orb_id_pc2sc (oset0 dim n) (row t) = Ok k).
Proof. exact no_vacancy_bijection. Qed.
Print Assumptions C07_bijection.

Example C07_example :
  positive (2, 3, 1) /\ in_cell (2, 3, 1) 2 (1, 2, 0, 1) /\
  orb_id_pc2sc (oset0 (2, 3, 1) 2) [1; 2; 0; 1] = Ok 11 /\
  orb_id_sc2pc (oset0 (2, 3, 1) 2) 7 = Ok (1, 0, 0, 1).
Proof. cbn [positive in_cell]. split; [lia|]. split; [lia|]. split; reflexivity. Qed.

(** The 32-bit C arithmetic of the conversion is exact as long as the number
    of cells is at most 2^31 ... *)
Theorem C07_int32_safe :
  forall (dim : Z * Z * Z) (n : Z) (t : site),
  positive dim -> in_cell dim n t ->
  (let '(na, nb, nc) := dim in na * nb * nc <= 2 ^ 31) -> n < 2 ^ 31 ->
  id_pc2sc_c dim n t = id_pc2sc dim n t.
Proof. exact id_c_ok. Qed.
Print Assumptions C07_int32_safe.

(** ... and wraps around beyond. *)
Theorem C07_int32_refuted :
  exists (dim : Z * Z * Z) (n : Z) (t : site),
    positive dim /\ in_cell dim n t /\ id_pc2sc_c dim n t < 0 < id_pc2sc dim n t.
Proof.
  exists (65536, 65536, 1), 1, (32768, 0, 0, 0). vm_compute. intuition discriminate.
Qed.
Print Assumptions C07_int32_refuted.

Example C07_int32_example :
  positive (1024, 1024, 2048) /\ in_cell (1024, 1024, 2048) 7 (1023, 1023, 2047, 6) /\
  1024 * 1024 * 2048 <= 2 ^ 31.
Proof. cbn [positive in_cell]. lia. Qed.

(** Any history of add_vacancies / set_vacancies calls, failing ones included:
    orb_id_pc is the ordered enumeration of the non-vacant sites, num_orb_sc
    its length, the vacancies are distinct sites of the supercell. *)
Theorem C08_enumeration :
  forall (dim : Z * Z * Z) (n : Z) (l : list vop), positive dim -> 0 <= n ->
  let s := vrun (oset0 dim n) l in
  enumerates dim n (fun t => In t (o_vacs s)) (o_orb_id_pc s) /\
  Z.of_nat (length (o_orb_id_pc s)) = num_orb_sc s /\
  NoDup (o_vacs s) /\ (forall t, In t (o_vacs s) -> in_cell dim n t).
Proof. exact reach_enum. Qed.
Print Assumptions C08_enumeration.

Theorem C08_num_orb :
  forall (dim : Z * Z * Z) (n : Z) (l : list vop),
  let s := vrun (oset0 dim n) l in
  let '(na, nb, nc) := dim in
  num_orb_sc s = na * nb * nc * n - Z.of_nat (length (o_vacs s)).
Proof.
  intros [[na nb] nc] n l s. unfold num_orb_sc, num_vac.
  destruct (vrun_dims l (oset0 (na, nb, nc) n)) as [Hd Hn]. fold s in Hd, Hn. rewrite Hd, Hn.
  cbn [oset0 o_dim o_n]. lia.
Qed.
Print Assumptions C08_num_orb.

(** orb_id_pc2sc: position in the enumeration, or the documented error. *)
Theorem C08_pc2sc :
  forall (dim : Z * Z * Z) (n : Z) (l : list vop), positive dim -> 0 <= n ->
  let s := vrun (oset0 dim n) l in
  forall id : list Z,
  match id with
  | [a; b; c; o] =>
    (in_cell dim n (a, b, c, o) /\ In (a, b, c, o) (o_vacs s) /\
     orb_id_pc2sc s id = Err IDPCVacError) \/
    (~ in_cell dim n (a, b, c, o) /\ orb_id_pc2sc s id = Err IDPCIndexError) \/
    (in_cell dim n (a, b, c, o) /\ ~ In (a, b, c, o) (o_vacs s) /\
     exists k, orb_id_pc2sc s id = Ok (Z.of_nat k) /\ nth_error (o_orb_id_pc s) k = Some (a, b, c, o))
  | _ => orb_id_pc2sc s id = Err IDPCLenError
  end.
Proof. exact reach_pc2sc. Qed.
Print Assumptions C08_pc2sc.

Theorem C08_sc2pc :
  forall (dim : Z * Z * Z) (n : Z) (l : list vop), positive dim -> 0 <= n ->
  let s := vrun (oset0 dim n) l in
  forall k, 0 <= k ->
  ((exists t, orb_id_sc2pc s k = Ok t /\ nth_error (o_orb_id_pc s) (Z.to_nat k) = Some t) <-> k < num_orb_sc s) /\
  (num_orb_sc s <= k -> orb_id_sc2pc s k = Err IDSCIndexError).
Proof. exact reach_sc2pc_ok. Qed.
Print Assumptions C08_sc2pc.

Theorem C08_inverse :
  forall (dim : Z * Z * Z) (n : Z) (l : list vop), positive dim -> 0 <= n ->
  let s := vrun (oset0 dim n) l in
  forall k t, 0 <= k ->
  (orb_id_sc2pc s k = Ok t <-> orb_id_pc2sc s (row t) = Ok k).
Proof. exact reach_inverse. Qed.
Print Assumptions C08_inverse.

(** add_vacancies adds exactly the listed sites; the calls before a bad one
    stay in effect (second theorem), so a failing call is not atomic. *)
Theorem C08_add_vacancies :
  forall (ts : list site) (s : oset),
  Forall (in_cell (o_dim s) (o_n s)) ts ->
  snd (add_vacancies s (map row ts)) = Ok tt /\
  forall t, In t (o_vacs (fst (add_vacancies s (map row ts)))) <-> In t (o_vacs s) \/ In t ts.
Proof. exact add_vacancies_all. Qed.
Print Assumptions C08_add_vacancies.

Theorem C08_add_vacancies_bad :
  forall (ts : list site) (v : list Z) (vs : list (list Z)) (s : oset),
  Forall (in_cell (o_dim s) (o_n s)) ts ->
  (forall t, in_cell (o_dim s) (o_n s) t -> v <> row t) ->
  snd (add_vacancies s (map row ts ++ v :: vs)) =
    Err (if (length v =? 4)%nat then IDPCIndexError else IDPCLenError) /\
  forall t, In t (o_vacs (fst (add_vacancies s (map row ts ++ v :: vs)))) <-> In t (o_vacs s) \/ In t ts.
Proof. exact add_vacancies_bad. Qed.
Print Assumptions C08_add_vacancies_bad.

Definition ex8 : oset := vrun (oset0 (2, 2, 1) 2)
  [Vadd [[0; 1; 0; 0]; [1; 1; 0; 1]; [0; 1; 0; 0]]; Vadd [[1; 0; 0; 0]; [9; 9; 9; 9]; [0; 0; 0; 0]]].
Example C08_example :
  o_vacs ex8 = [(0, 1, 0, 0); (1, 1, 0, 1); (1, 0, 0, 0)] /\ num_orb_sc ex8 = 5 /\
  o_orb_id_pc ex8 = [(0, 0, 0, 0); (0, 0, 0, 1); (0, 1, 0, 1); (1, 0, 0, 1); (1, 1, 0, 0)] /\
  orb_id_pc2sc ex8 [1; 0; 0; 1] = Ok 3 /\ orb_id_pc2sc ex8 [1; 0; 0; 0] = Err IDPCVacError.
Proof. repeat split. Qed.

(** set_vacancies() with its default argument removes all vacancies and then
    raises. *)
Theorem C08_set_vacancies_default_refuted :
  exists s, vset_ok s /\ positive (o_dim s) /\ o_vacs s <> [] /\
    snd (set_vacancies s None) = Err TypeError /\ o_vacs (fst (set_vacancies s None)) = [].
Proof.
  exists ex8. split; [apply vrun0_ok|]. split; [vm_compute; intuition discriminate|].
  split; [discriminate|]. split; reflexivity.
Qed.
Print Assumptions C08_set_vacancies_default_refuted.

(** Bisection and linear search. *)
Theorem C09_search :
  forall (vac : list Z) (x : Z), vac <> [] -> increasing vac ->
  vac_lin vac x = vac_index vac x /\ vac_bis vac x = Ok (vac_index vac x).
Proof. exact (fun vac x Hn Hi => conj (vac_lin_spec vac x Hn Hi) (vac_bis_spec vac x Hn Hi)). Qed.
Print Assumptions C09_search.

Example C09_example :
  increasing [1; 4; 5; 9; 12] /\ vac_bis [1; 4; 5; 9; 12] 7 = Ok 4 /\
  vac_lin [1; 4; 5; 9; 12] 7 = 4 /\ vac_bis [1; 4; 5; 9; 12] 9 = Ok (-1).
Proof. split; [|repeat split]. cbn. intuition lia. Qed.

(** Array versions agree with the single conversions, element by element. *)
Theorem C09_pc2sc_array :
  forall (dim : Z * Z * Z) (n : Z) (l : list vop), positive dim -> 0 <= n ->
  let s := vrun (oset0 dim n) l in
  forall ids : list site,
  (Forall (fun t => in_cell dim n t /\ ~ In t (o_vacs s)) ids ->
   exists ks, orb_id_pc2sc_array s ids = Ok ks /\
     Forall2 (fun t k => orb_id_pc2sc s (row t) = Ok k) ids ks) /\
  (~ Forall (fun t => in_cell dim n t /\ ~ In t (o_vacs s)) ids ->
   exists pre t post e, ids = pre ++ t :: post /\
     Forall (fun t => in_cell dim n t /\ ~ In t (o_vacs s)) pre /\
     orb_id_pc2sc s (row t) = Err e /\ orb_id_pc2sc_array s ids = Err e).
Proof. exact reach_pc2sc_array. Qed.
Print Assumptions C09_pc2sc_array.

Theorem C09_sc2pc_array :
  forall (dim : Z * Z * Z) (n : Z) (l : list vop), positive dim -> 0 <= n ->
  let s := vrun (oset0 dim n) l in
  forall ks : list Z,
  (Forall (fun k => 0 <= k < num_orb_sc s) ks ->
   exists ts, orb_id_sc2pc_array s ks = Ok ts /\
     Forall2 (fun k t => orb_id_sc2pc s k = Ok t) ks ts) /\
  (~ Forall (fun k => 0 <= k < num_orb_sc s) ks -> orb_id_sc2pc_array s ks = Err IDSCIndexError).
Proof. exact reach_sc2pc_array. Qed.
Print Assumptions C09_sc2pc_array.

Example C09_array_example :
  orb_id_pc2sc_array ex8 [(1, 1, 0, 0); (0, 0, 0, 1)] = Ok [4; 1] /\
  orb_id_pc2sc_array ex8 [(1, 1, 0, 0); (1, 1, 0, 1); (7, 7, 7, 7)] = Err IDPCVacError /\
  orb_id_sc2pc_array ex8 [4; 1] = Ok [(1, 1, 0, 0); (0, 0, 0, 1)].
Proof. repeat split. Qed.

(** Wrapping terminates and is the Euclidean remainder; the division is the
    floor quotient. *)
Theorem C10_wrap_div :
  forall j n : Z, 0 < n ->
  wrap_pbc j n true = Ok (j mod n) /\
  wrap_pbc j n false = Ok (if (0 <=? j) && (j <? n) then j else -1) /\
  fast_div j n = Ok (j / n) /\
  j = n * (j / n) + j mod n /\ 0 <= j mod n < n.
Proof.
  exact (fun j n Hn => conj (wrap_pbc_ok j n Hn) (conj (wrap_open_ok j n)
    (conj (fast_div_ok j n Hn) (conj (Z.div_mod j n (not_eq_sym (Z.lt_neq 0 n Hn)))
       (Z.mod_pos_bound j n Hn))))).
Qed.
Print Assumptions C10_wrap_div.

Example C10_example :
  wrap_pbc (-7) 3 true = Ok 2 /\ fast_div (-7) 3 = Ok (-3) /\
  wrap_pbc 6 3 true = Ok 0 /\ fast_div 6 3 = Ok 2 /\ wrap_pbc (-1) 3 false = Ok (-1).
Proof. repeat split. Qed.
