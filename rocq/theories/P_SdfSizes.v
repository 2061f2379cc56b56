(* C39: all values of the type size_t.  Vocabulary: S_Sdf.v *)
From Verif Require Import Base Spec S_Reduce S_Sdf M_Tensor M_Sdf L_Reduce L_Sdf L_Sdf2 P_Sdf.
Local Open Scope Z_scope.

(* the integers that a double can hold: at most 53 significant bits *)
Definition in_double (x : Z) : Prop := exists m k, 0 <= m <= 2 ^ 53 /\ 0 <= k /\ x = m * 2 ^ k.

Lemma round_form x : 2 ^ 53 <= x < 2 ^ 64 -> exists e q, 1 <= e <= 11 /\ 2 ^ 52 <= q <= 2 ^ 53 /\ round_double x = q * 2 ^ e /\
  2 * Z.abs (q * 2 ^ e - x) <= 2 ^ e /\ 2 ^ 52 * 2 ^ e <= x < 2 ^ 53 * 2 ^ e /\ (2 * Z.abs (q * 2 ^ e - x) = 2 ^ e -> Z.even q = true).
Proof.
  intros H. assert (P53 : 0 < 2 ^ 53) by lia. unfold round_double. rewrite Z.abs_eq by lia. set (e := Z.log2 x - 52).
  assert (L : 2 ^ Z.log2 x <= x < 2 ^ Z.succ (Z.log2 x)) by (apply Z.log2_spec; lia).
  assert (L1 : 53 <= Z.log2 x) by (apply Z.log2_le_pow2; lia). assert (L2 : Z.log2 x < 64) by (apply Z.log2_lt_pow2; lia).
  assert (E1 : 2 ^ Z.log2 x = 2 ^ 52 * 2 ^ e) by (rewrite <- Z.pow_add_r by lia; f_equal; lia).
  assert (E2 : 2 ^ Z.succ (Z.log2 x) = 2 ^ 53 * 2 ^ e) by (rewrite <- Z.pow_add_r by lia; f_equal; lia).
  rewrite E1, E2 in L. assert (P : 0 < 2 ^ e) by (apply Z.pow_pos_nonneg; lia).
  replace (e <=? 0) with false by lia. pose proof (Z.div_mod x (2 ^ e) ltac:(lia)) as D. pose proof (Z.mod_pos_bound x (2 ^ e) P) as M.
  set (q := x / 2 ^ e) in *. set (r := x mod 2 ^ e) in *. assert (Q : 2 ^ 52 <= q < 2 ^ 53) by (split; nia).
  rewrite Z.sgn_pos, Z.mul_1_l by lia.
  exists e. destruct (Z.ltb_spec (2 * r) (2 ^ e)); [|destruct (Z.ltb_spec (2 ^ e) (2 * r)); [|destruct (Z.even q) eqn:V]];
    [exists q|exists (q + 1)|exists q|exists (q + 1)]; (split; [unfold e; lia|]); (split; [lia|]); (split; [reflexivity|]); (split; [nia|]); (split; [exact L|]); intros X; try exact V; try (exfalso; nia).
  rewrite Z.even_add, V. reflexivity.
Qed.

Lemma bits_form q e : 2 ^ 52 <= q < 2 ^ 53 -> 0 <= e <= 12 ->
  let v := q * 2 ^ e in let l := Z.log2 (Z.abs v) in let w := (if v <? 0 then 2 ^ 63 else 0) + (1023 + l) * 2 ^ 52 + (Z.shiftl (Z.abs v) (52 - l) - 2 ^ 52) in
  v =? 0 = false /\ double_trunc w = Some v /\ is_word w.
Proof.
  intros Hq He v l w. assert (P : 0 < 2 ^ e) by (apply Z.pow_pos_nonneg; lia). assert (Hv : 0 < v) by (unfold v; nia).
  assert (L : l = 52 + e) by (unfold l; rewrite Z.abs_eq by lia; unfold v; rewrite Z.log2_mul_pow2 by lia; rewrite (Z.log2_unique q 52) by lia; lia).
  split; [lia|].
  assert (S : Z.shiftl (Z.abs v) (52 - l) = q) by (rewrite L, Z.abs_eq by lia; replace (52 - (52 + e)) with (- e) by lia; rewrite Z.shiftl_opp_r, Z.shiftr_div_pow2 by lia; unfold v; apply Z.div_mul; lia).
  assert (W : w = (1075 + e) * 2 ^ 52 + (q - 2 ^ 52)) by (unfold w; rewrite S, L; replace (v <? 0) with false by lia; lia). clearbody w. subst w.
  assert (D : ((1075 + e) * 2 ^ 52 + (q - 2 ^ 52)) / 2 ^ 52 = 1075 + e) by (symmetry; apply (Z.div_unique _ _ _ (q - 2 ^ 52)); lia).
  assert (M : ((1075 + e) * 2 ^ 52 + (q - 2 ^ 52)) mod 2 ^ 52 = q - 2 ^ 52) by (symmetry; apply (Z.mod_unique _ _ (1075 + e)); lia).
  split; [|unfold is_word; lia]. unfold double_trunc. rewrite D, M. rewrite (Z.mod_small (1075 + e)) by lia.
  replace (1075 + e =? 2047) with false by lia. replace (1075 + e =? 0) with false by lia. replace (2 ^ 52 + (q - 2 ^ 52)) with q by lia. replace (1075 + e - 1075) with e by lia.
  rewrite Z.shiftl_mul_pow2 by lia. replace (_ <? 2 ^ 63) with true by lia. reflexivity.
Qed.

Lemma double_any v : 0 <= v < 2 ^ 64 -> double_trunc (double_bits v) = Some (round_double v) /\ is_word (double_bits v).
Proof.
  intros H. destruct (Z.lt_ge_cases v (2 ^ 53)) as [S|S]; [rewrite round_small by lia; apply double_int; lia|].
  destruct (round_form v) as (e & q & He & Hq & E & _); [lia|]. unfold double_bits. rewrite E.
  destruct (Z.eq_dec q (2 ^ 53)) as [->|N].
  - replace (2 ^ 53 * 2 ^ e) with (2 ^ 52 * 2 ^ (e + 1)) by (rewrite Z.pow_add_r by lia; lia).
    destruct (bits_form (2 ^ 52) (e + 1)) as (B1 & B2 & B3); [lia|lia|]. cbv zeta. rewrite B1. split; [exact B2|exact B3].
  - destruct (bits_form q e) as (B1 & B2 & B3); [lia|lia|]. cbv zeta. rewrite B1. split; [exact B2|exact B3].
Qed.

Lemma round_nearest v : 0 <= v < 2 ^ 64 -> in_double (round_double v) /\ (forall d, in_double d -> Z.abs (round_double v - v) <= Z.abs (d - v)) /\
  2 ^ 53 * Z.abs (round_double v - v) <= v /\ (2 ^ 64 <= round_double v <-> 2 ^ 64 - 2 ^ 10 <= v).
Proof.
  intros H. destruct (Z.lt_ge_cases v (2 ^ 53)) as [S|S].
  { rewrite round_small by lia. split; [exists v, 0; lia|]. rewrite Z.sub_diag. cbn [Z.abs]. split; [intros; lia|]. lia. }
  destruct (round_form v) as (e & q & He & Hq & -> & N & R & Ev); [lia|]. assert (P : 0 < 2 ^ e) by (apply Z.pow_pos_nonneg; lia).
  assert (J : forall j, Z.abs (q * 2 ^ e - v) <= Z.abs (j * 2 ^ e - v)).
  { intros j. destruct (Z.eq_dec j q) as [->|D]; [lia|]. assert (2 ^ e <= Z.abs (q * 2 ^ e - j * 2 ^ e)) by (rewrite <- Z.mul_sub_distr_r, Z.abs_mul, (Z.abs_eq (2 ^ e)) by lia; nia). lia. }
  split; [exists q, e; lia|]. split; [|split].
  - intros d (m & k & Hm & Hk & ->). destruct (Z.lt_ge_cases (m * 2 ^ k) (2 ^ 52 * 2 ^ e)) as [D|D]; [pose proof (J (2 ^ 52)); lia|].
    destruct (Z.lt_ge_cases k e) as [K|K].
    + assert (E : 2 ^ e = 2 ^ (e - 1 - k) * 2 * 2 ^ k) by (replace e with ((e - 1 - k) + 1 + k) at 1 by lia; rewrite !Z.pow_add_r by lia; lia).
      assert (P1 : 0 < 2 ^ (e - 1 - k)) by (apply Z.pow_pos_nonneg; lia). assert (P2 : 0 < 2 ^ k) by (apply Z.pow_pos_nonneg; lia).
      assert (D' : 2 ^ 52 * (2 ^ (e - 1 - k) * 2) <= m) by (apply (Z.mul_le_mono_pos_r _ _ (2 ^ k)); lia).
      assert (X : m * 2 ^ k = 2 ^ 52 * 2 ^ e) by (rewrite E; nia). rewrite X. apply J.
    + replace k with ((k - e) + e) by lia. rewrite Z.pow_add_r by lia. rewrite Z.mul_assoc. apply J.
  - nia.
  - assert (C : e = 11 \/ e <= 10) by lia. destruct C as [->|C].
    + change (2 ^ 11) with 2048 in *. change (2 ^ 10) with 1024. change (2 ^ 64) with (2 ^ 53 * 2048) in *. split; intros X; [lia|]. destruct (Z.eq_dec q (2 ^ 53)) as [->|D]; [lia|]. exfalso. pose proof (J (2 ^ 53)). assert (Eq : q = 2 ^ 53 - 1) by lia. subst q. specialize (Ev ltac:(lia)). discriminate Ev.
    + assert (2 ^ e <= 2 ^ 10) by (apply Z.pow_le_mono_r; lia). change (2 ^ 10) with 1024 in *. split; nia.
Qed.

(* Whatever the number of type size_t, and whatever else is in the file, load()
   gives the closest number that a double can hold, so it is the same number if
   a double can hold it; the last 1024 numbers are rounded to 2^64, and load()
   is then undefined. *)
Theorem C39_size_t_partial : forall junk asked name v b c,
  ok_name name -> asks_for asked name -> 0 <= v < 2 ^ 64 ->
  exists r, in_double r /\ (forall d, in_double d -> Z.abs (r - v) <= Z.abs (d - v)) /\ 2 ^ 53 * Z.abs (r - v) <= v /\
    (v < 2 ^ 64 - 2 ^ 10 -> exists c', load junk KSize asked (mkRS (concat (dump (VSize v) name) ++ b) false c) = Ok (VSize r, mkRS b false c')) /\
    (2 ^ 64 - 2 ^ 10 <= v -> load junk KSize asked (mkRS (concat (dump (VSize v) name) ++ b) false c) = UB).
Proof.
  intros junk asked name v b c Hn Ha Hv. destruct (round_nearest v Hv) as (R1 & R2 & R3 & R4). exists (round_double v). repeat (split; [assumption|]).
  destruct (double_any v Hv) as [E W]. destruct (load_R_ok junk asked name (mkST [1] [double_bits v]) b c (asks_accepts _ _ Hn Ha) (one_tensor_ok _ _ W)) as (c' & El).
  assert (L : load junk KSize asked (mkRS (concat (dump (VSize v) name) ++ b) false c) = (if round_double v <? 2 ^ 64 then Ok (VSize (round_double v), mkRS b false c') else UB)).
  { cbn [load dump]. unfold load_double. rewrite El. cbn [bind selts length]. change (1 <? 1)%nat with false. cbn [rd nth_error bind]. unfold double_to. rewrite E.
    assert (0 <= round_double v) by (destruct R1 as (m & k & Hm & Hk & ->); pose proof (Z.pow_nonneg 2 k); nia). replace (0 <=? round_double v) with true by lia. destruct (round_double v <? 2 ^ 64); reflexivity. }
  rewrite L. split; intros Hl.
  - exists c'. replace (round_double v <? 2 ^ 64) with true by lia. reflexivity.
  - replace (round_double v <? 2 ^ 64) with false by lia. reflexivity.
Qed.
Print Assumptions C39_size_t_partial.

(* so exactly the numbers that a double can hold come back *)
Theorem C39_size_t_exact : forall junk asked name v b c, ok_name name -> asks_for asked name -> 0 <= v < 2 ^ 64 ->
  (exists c', load junk KSize asked (mkRS (concat (dump (VSize v) name) ++ b) false c) = Ok (VSize v, mkRS b false c')) <-> in_double v.
Proof.
  intros junk asked name v b c Hn Ha Hv. destruct (C39_size_t_partial junk asked name v b c Hn Ha Hv) as (r & R1 & R2 & R3 & R4 & R5). split.
  - intros (c' & E). destruct (Z.lt_ge_cases v (2 ^ 64 - 2 ^ 10)) as [L|L].
    + destruct (R4 L) as (c'' & E'). rewrite E' in E. injection E as -> _. exact R1.
    + rewrite (R5 L) in E. discriminate E.
  - intros I. assert (r = v) by (pose proof (R2 v I); lia). subst r. apply R4.
    destruct (Z.lt_ge_cases v (2 ^ 64 - 2 ^ 10)) as [L|L]; [exact L|]. exfalso. destruct (round_nearest v Hv) as (_ & N & _ & X). pose proof (N v I). apply X in L. lia.
Qed.
Print Assumptions C39_size_t_exact.

(* 3 * 2^60 and 2^53 - 1 come back, 2^53 + 1 does not *)
Example C39_sizes_meet : in_double (3 * 2 ^ 60) /\ in_double (2 ^ 53 - 1) /\ ~ in_double (2 ^ 53 + 1) /\ ok_name [97] /\ asks_for [] [97].
Proof.
  split; [exists 3, 60; lia|]. split; [exists (2 ^ 53 - 1), 0; lia|]. split; [|split; [|left; reflexivity]].
  - intros (m & k & Hm & Hk & E). destruct (Z.eq_dec k 0) as [->|K]; [lia|]. replace k with (k - 1 + 1) in E by lia. rewrite Z.pow_add_r in E by lia. lia.
  - split; [cbn; lia|repeat constructor; unfold is_byte; lia].
Qed.
