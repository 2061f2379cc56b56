(* C95: the sorting routines of the ARPACK that comes with the library *)
From Coq Require Import String List Reals Permutation Lia Lra.
From Verif Require Import Base M_Double S_Double M_DoubleReduce S_DoubleReduce M_ArpackSort S_ArpackSort L_ArpackSort L_ArpackOrder.
Import ListNotations.
Local Open Scope R_scope.

(* For every length, every code and all numbers, infinities included, the routine
   ends, the first n elements become ordered with the most wished last, each with
   its companion, and nothing else changes. *)
Theorem C95_dsortr : forall B fuel w n (x1 : list double) (x2 : list B), known_code w ->
  (n <= length x1)%nat -> (n <= length x2)%nat -> (3 * n + 2 < fuel)%nat -> Forall is_number (firstn n x1) ->
  exists y1 y2, dsortr fuel w true (Z.of_nat n) x1 x2 = Ok (y1, y2) /\ rearranged n x1 x2 y1 y2 /\ increasing (wish w) n y1.
Proof.
  intros B fuel w n x1 x2 Hw H1 H2 Hf G. unfold dsortr. destruct (wrong_wish w Hw) as (wrong & -> & W).
  destruct (sort_arrays_orders wrong n is_number (w_asym _ _ _ W) (w_trans _ _ _ W) fuel x1 x2 H1 H2 Hf G) as (y1 & y2 & E & Rr & O).
  exists y1, y2. split; [exact E|]. split; [exact Rr|].
  apply (w_increasing (wish w) is_number wrong W); [|exact O].
  apply (good_firstn is_number (firstn n x1)); [|exact G]. apply (rearranged_keys n x1 x2 y1 y2 H1 H2 Rr).
Qed.

(* without companions x2 is not looked at *)
Theorem C95_dsortr_alone : forall B fuel w n (x1 : list double) (x2 : list B), known_code w ->
  (n <= length x1)%nat -> (3 * n + 2 < fuel)%nat -> Forall is_number (firstn n x1) ->
  exists y1, dsortr fuel w false (Z.of_nat n) x1 x2 = Ok (y1, x2) /\ Permutation (firstn n x1) (firstn n y1) /\
    length y1 = length x1 /\ skipn n y1 = skipn n x1 /\ increasing (wish w) n y1.
Proof.
  intros B fuel w n x1 x2 Hw H1 Hf G. unfold dsortr. destruct (wrong_wish w Hw) as (wrong & -> & W).
  destruct (sort_one_orders wrong n x2 is_number (w_asym _ _ _ W) (w_trans _ _ _ W) fuel x1 H1 Hf G) as (y1 & E & P & L & K & O).
  exists y1. split; [exact E|]. split; [exact P|]. split; [exact L|]. split; [exact K|].
  apply (w_increasing (wish w) is_number wrong W); [|exact O]. apply (good_firstn is_number (firstn n x1)); assumption.
Qed.

(* also with NaNs among the values it ends and rearranges *)
Theorem C95_dsortr_nan : forall B fuel w n (x1 : list double) (x2 : list B), known_code w ->
  (n <= length x1)%nat -> (n <= length x2)%nat -> (3 * n + 2 < fuel)%nat ->
  exists y1 y2, dsortr fuel w true (Z.of_nat n) x1 x2 = Ok (y1, y2) /\ rearranged n x1 x2 y1 y2.
Proof.
  intros B fuel w n x1 x2 Hw H1 H2 Hf. unfold dsortr. destruct (wrong_wish w Hw) as (wrong & -> & _).
  apply sort_arrays_rearranges; assumption.
Qed.

(* but the numbers need not be in order then: 2, NaN, 1 stays as it is *)
Theorem C95_dsortr_nan_order_refuted : exists n x1,
  dsortr (3 * n + 3) "LA" false (Z.of_nat n) x1 (@nil unit) = Ok (x1, []) /\ length x1 = n /\
  exists i j x y, (i < j)%nat /\ nth_error x1 i = Some x /\ nth_error x1 j = Some y /\ is_number x /\ is_number y /\ value y < value x.
Proof.
  exists 3%nat, [dofZ 2; Flocq.IEEE754.BinarySingleNaN.B754_nan; dofZ 1]. split.
  { assert (N : forall x, dlt x Flocq.IEEE754.BinarySingleNaN.B754_nan = false) by (intros [| | |]; reflexivity).
    assert (M : forall x, dlt Flocq.IEEE754.BinarySingleNaN.B754_nan x = false) by (intros [| | |]; reflexivity).
    generalize (dofZ 2) (dofZ 1). intros a b. cbv -[dlt]. rewrite M, N. reflexivity. }
  split; [reflexivity|]. exists 0%nat, 2%nat, (dofZ 2), (dofZ 1). split; [lia|]. split; [reflexivity|]. split; [reflexivity|].
  split; [vm_compute; reflexivity|]. split; [vm_compute; reflexivity|].
  assert (E : dlt (dofZ 1) (dofZ 2) = true) by (vm_compute; reflexivity).
  rewrite dlt_spot in E by (vm_compute; reflexivity).
  destruct (Flocq.Core.Raux.Rlt_bool_spec (spot (dofZ 1)) (spot (dofZ 2))) as [H|]; [exact H|discriminate].
Qed.

(* with a code that is none of these nothing is done *)
Theorem C95_dsortr_unknown : forall B fuel w apply n (x1 : list double) (x2 : list B), ~ known_code w ->
  dsortr fuel w apply n x1 x2 = Ok (x1, x2).
Proof.
  intros B fuel w apply n x1 x2 H. unfold dsortr, wrong_order.
  destruct (String.eqb_spec w "SA") as [->|_]; [exfalso; apply H; cbn; auto|].
  destruct (String.eqb_spec w "SM") as [->|_]; [exfalso; apply H; cbn; auto|].
  destruct (String.eqb_spec w "LA") as [->|_]; [exfalso; apply H; cbn; auto|].
  destruct (String.eqb_spec w "LM") as [->|_]; [exfalso; apply H; cbn; auto|]. reflexivity.
Qed.

(* dsesrt: the companions are the columns of a matrix *)
Theorem C95_dsesrt : forall B fuel w n (x : list double) na (a : list B) lda, known_code w ->
  (n <= length x)%nat -> (na <= lda)%nat -> (n * lda <= length a)%nat -> (3 * n + 2 < fuel)%nat -> Forall is_number (firstn n x) ->
  exists y b, dsesrt fuel w true (Z.of_nat n) x na a (Z.of_nat lda) = Ok (y, b) /\ increasing (wish w) n y /\
    Permutation (combine (firstn n x) (map (column lda na a) (seq 0 n))) (combine (firstn n y) (map (column lda na b) (seq 0 n))) /\
    length y = length x /\ skipn n y = skipn n x /\ length b = length a /\
    (forall p, (forall j, (j < n)%nat -> (p < j * lda \/ j * lda + na <= p)%nat) -> nth_error b p = nth_error a p).
Proof.
  intros B fuel w n x na a lda Hw H1 Hna Hlen Hf G. unfold dsesrt. destruct (wrong_wish w Hw) as (wrong & -> & W).
  set (l0 := combine (firstn n x) (map (column lda na a) (seq 0 n))).
  assert (Ll : length (firstn n x) = length (map (column lda na a) (seq 0 n))) by (rewrite firstn_length, map_length, seq_length; lia).
  assert (L0 : length l0 = n) by (unfold l0; rewrite combine_length, firstn_length, map_length, seq_length; lia).
  assert (St : holdsc n lda na a (skipn n x) (x, a) l0).
  { split; [exact L0|]. cbn [fst snd]. split; [unfold l0; rewrite combine_fst by exact Ll; rewrite firstn_skipn; reflexivity|].
    split; [reflexivity|]. split; [|auto]. intros j p Hp.
    assert (E : nth_error (map snd l0) j = Some (snd p)) by (rewrite nth_error_map, Hp; reflexivity).
    unfold l0 in E. rewrite combine_snd in E by exact Ll. rewrite nth_error_map in E.
    assert (Hj : (j < n)%nat) by (rewrite <- L0; apply nth_error_Some; congruence).
    destruct (nth_error (seq 0 n) j) as [q|] eqn:Eq; [|discriminate].
    rewrite (nth_error_nth' _ 0%nat) in Eq by (rewrite seq_length; exact Hj). rewrite seq_nth in Eq by exact Hj.
    injection Eq as <-. cbn in E. congruence. }
  destruct (shell_orders (fun s j k => u <- rdZ (fst s) j ;; v <- rdZ (fst s) k ;; Ok (wrong u v))
    (fun s j k => x <- exchange (fst s) j k ;; b <- dswap na (snd s) (j * Z.of_nat lda) (k * Z.of_nat lda) ;; Ok (x, b))
    (fun u v => wrong (fst u) (fst v)) n (holdsc n lda na a (skipn n x))
    (fun s l H => proj1 H) (holdsc_test wrong n lda na a (skipn n x) Hna Hlen) (holdsc_swap n lda na a (skipn n x) Hna Hlen)
    (fun p => is_number (fst p)) (fun x y => w_asym _ _ _ W (fst x) (fst y)) (fun x y z => w_trans _ _ _ W (fst x) (fst y) (fst z))
    fuel (x, a) l0 Hf St) as ([y b] & l & E & (L1 & L2 & L3 & L4 & L5) & P & O).
  { rewrite Forall_forall in *. intros [u v] Hin. apply G. unfold l0 in Hin. apply in_combine_l in Hin. exact Hin. }
  cbn [fst snd] in *. exists y, b. split; [exact E|].
  assert (Fy : firstn n y = map fst l) by (rewrite L2; apply firstn_prefix; rewrite map_length; exact L1).
  assert (Cb : map (column lda na b) (seq 0 n) = map snd l).
  { apply list_eq_nth. intros j. rewrite !nth_error_map.
    destruct (Nat.lt_ge_cases j n) as [Hj|Hj].
    - rewrite (nth_error_nth' (seq 0 n) 0%nat) by (rewrite seq_length; exact Hj). rewrite seq_nth by exact Hj. cbn [option_map Nat.add].
      destruct (nth_error_lt l j) as [p Hp]; [lia|]. rewrite Hp. cbn [option_map]. rewrite (L4 j p Hp). reflexivity.
    - rewrite !(proj2 (nth_error_None _ _)); [reflexivity|lia|rewrite seq_length; lia]. }
  split; [|split; [rewrite Fy, Cb, combine_split_map; exact P|]].
  - apply (w_increasing (wish w) is_number wrong W).
    + apply (good_firstn is_number (firstn n x)); [|exact G]. rewrite Fy. rewrite <- (combine_fst (firstn n x) _ Ll). apply Permutation_map. exact P.
    + intros i j u v Hij Hu Hv.
      rewrite L2, nth_error_app1 in Hu, Hv by (rewrite map_length; lia). rewrite nth_error_map in Hu, Hv.
      destruct (nth_error l i) as [p|] eqn:Ei; [|discriminate]. destruct (nth_error l j) as [q|] eqn:Ej; [|discriminate].
      cbn in Hu, Hv. injection Hu as <-. injection Hv as <-. apply (O i j p q); auto; lia.
  - split; [rewrite L2, app_length, map_length, skipn_length; lia|]. split; [rewrite L2; apply skipn_prefix; rewrite map_length; exact L1|]. auto.
Qed.

(* zsortc, for complex numbers *)
Theorem C95_zsortc : forall B lapy2 fuel w n (x : list (double * double)) (x2 : list B), known_ccode w ->
  (n <= length x)%nat -> (n <= length x2)%nat -> (3 * n + 2 < fuel)%nat ->
  Forall (fun z => is_number (fst z) /\ is_number (snd z) /\ is_number (lapy2 (fst z) (snd z))) (firstn n x) ->
  exists y1 y2, zsortc lapy2 fuel w true (Z.of_nat n) x x2 = Ok (y1, y2) /\ rearranged n x x2 y1 y2 /\ increasing (cwish lapy2 w) n y1.
Proof.
  intros B lapy2 fuel w n x1 x2 Hw H1 H2 Hf G. unfold zsortc. destruct (wrong_cwish lapy2 w Hw) as (wrong & -> & W).
  destruct (sort_arrays_orders wrong n (cnumber lapy2) (w_asym _ _ _ W) (w_trans _ _ _ W) fuel x1 x2 H1 H2 Hf G) as (y1 & y2 & E & Rr & O).
  exists y1, y2. split; [exact E|]. split; [exact Rr|].
  apply (w_increasing (cwish lapy2 w) (cnumber lapy2) wrong W); [|exact O].
  apply (good_firstn (cnumber lapy2) (firstn n x1)); [|exact G]. apply (rearranged_keys n x1 x2 y1 y2 H1 H2 Rr).
Qed.

(* six values with ties, in the order of magnitude, with their places *)
Example C95_case : Forall is_number (firstn 6 (map dofZ [3; -7; 2; -3; 0; 7]%Z)) /\
  match dsortr 21 "LM" true 6 (map dofZ [3; -7; 2; -3; 0; 7]%Z) (seq 0 6) with Ok (_, y2) => y2 | _ => [] end = [4; 2; 0; 3; 1; 5]%nat.
Proof. split; [cbn [firstn map]; repeat (apply Forall_cons; [vm_compute; reflexivity|]); apply Forall_nil|vm_compute; reflexivity]. Qed.

Print Assumptions C95_dsortr.
Print Assumptions C95_dsortr_alone.
Print Assumptions C95_dsortr_nan.
Print Assumptions C95_dsortr_nan_order_refuted.
Print Assumptions C95_dsortr_unknown.
Print Assumptions C95_dsesrt.
Print Assumptions C95_zsortc.
