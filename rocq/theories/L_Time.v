(* Lemmas for P_Time.v *)
From Coq Require Import Reals Lra.
From Flocq Require Import Core BinarySingleNaN.
From Verif Require Import Base M_Double S_Double L_Double S_Time M_Time.
Local Open Scope R_scope.

Definition m6 : R := IZR 4722366482869645 * bpow radix2 (-72).
Lemma m6_val : m6 = 4722366482869645 / 4722366482869645213696.
Proof. unfold m6. cbn. lra. Qed.
Lemma m6_near : 0 < m6 < / 1000000 /\ / 1000000 - m6 < / 100000000000000000000.
Proof. rewrite m6_val. split; [split|]; lra. Qed.
Lemma fits_small x : Rabs x <= 18014398509481984 -> fits x.
Proof. intros H. apply (fits_lt x 54); [lia|]. cbn. exact H. Qed.
Lemma micro_ok : finite micro /\ value micro = m6.
Proof.
  assert (R : rep m6) by (unfold m6; apply rep_int; lia).
  destruct (dmake_ok 4722366482869645 (-72)) as [F V].
  - apply fits_small. fold m6. pose proof m6_near. rewrite Rabs_pos_eq; lra.
  - split; [exact F|]. unfold micro. rewrite V. fold m6. apply RN_id. exact R.
Qed.
Lemma uro_val : uro = / 9007199254740992.
Proof. unfold uro. cbn. lra. Qed.
Lemma tiny_small : tiny < / 1000000000000000000.
Proof. unfold tiny. apply Rle_lt_trans with (bpow radix2 (-60)); [apply bpow_le; lia|cbn; lra]. Qed.

Lemma ok_far t : ok_moment t -> far_moment t.
Proof. intros [H1 H2]. split; [lia|exact H2]. Qed.

(* rounding below 2^32 *)
Lemma RN_abs_error x : Rabs x < 4294967296 -> Rabs (RN x - x) <= / 4194304.
Proof.
  intros H. destruct (Req_dec x 0) as [->|N]; [rewrite RN_0, Rminus_0_r, Rabs_R0; lra|].
  pose proof (error_le_half_ulp radix2 (SpecFloat.fexp 53 1024) (fun x => negb (Z.even x)) x) as E.
  assert (M : (mag radix2 x <= 32)%Z) by (apply mag_le_bpow; [exact N|cbn; exact H]).
  assert (U : ulp radix2 (SpecFloat.fexp 53 1024) x <= bpow radix2 (-21)).
  { rewrite ulp_neq_0 by exact N. unfold cexp. apply bpow_le. unfold SpecFloat.fexp, SpecFloat.emin. lia. }
  cbn in U. unfold RN. eapply Rle_trans; [exact E|]. lra.
Qed.

Section Moment.
Context (t : moment) (H : far_moment t).
Definition part : R := RN (m6 * IZR (usec t)).
Lemma part_range : 0 <= part <= 1 /\ Rabs (part - IZR (usec t) / 1000000) <= / 1000000000000.
Proof.
  destruct H as [_ [U1 U2]]. apply IZR_le in U1. assert (U3 : IZR (usec t) <= 999999) by (apply IZR_le; lia).
  pose proof m6_near as [[M1 M2] M3]. assert (P : 0 <= m6 * IZR (usec t) <= 1) by (split; nra).
  assert (R1 : rep 1) by (replace 1 with (IZR 1 * bpow radix2 0) by (cbn; lra); apply rep_int; lia).
  split; [split|].
  - unfold part. rewrite <- RN_0. apply RN_le. apply P.
  - unfold part. apply RN_le_rep; [exact R1|apply P].
  - destruct (RN_error (m6 * IZR (usec t))) as (d & e & D & E & Q). unfold part. rewrite Q. rewrite uro_val in D. pose proof tiny_small.
    apply Rabs_le_inv in D. apply Rabs_le_inv in E. set (x := m6 * IZR (usec t)) in *. assert (X : -/ 10000000000000 <= x * d <= / 10000000000000) by (split; nra).
    assert (Y : - / 100000000000 * / 100 <= x - IZR (usec t) / 1000000 <= 0) by (unfold x; split; nra).
    apply Rabs_le. lra.
Qed.
Lemma now_far : finite (now t) /\ value (now t) = RN (IZR (sec t) + part) /\ 0 <= value (now t) <= 4503599627370496.
Proof.
  pose proof part_range as [P1 P2]. destruct H as [[S1 S2] [U1 U2]]. change (2 ^ 52)%Z with 4503599627370496%Z in S2.
  destruct (dofZ_ok (sec t)) as [Fs Vs]; [lia|]. destruct (dofZ_ok (usec t)) as [Fu Vu]; [lia|]. destruct micro_ok as [Fm Vm].
  assert (S3 : 0 <= IZR (sec t)) by (apply IZR_le; lia). assert (S4 : IZR (sec t) <= 4503599627370495) by (apply IZR_le; lia).
  assert (U3 : 0 <= IZR (usec t)) by (apply IZR_le; lia). assert (U4 : IZR (usec t) <= 999999) by (apply IZR_le; lia).
  pose proof m6_near as [[M1 M2] _].
  destruct (dmul_ok micro (dofZ (usec t)) Fm Fu) as [Fp Vp]; [rewrite Vm, Vu; apply fits_small; rewrite Rabs_pos_eq; nra|]. rewrite Vm, Vu in Vp. fold part in Vp.
  destruct (dadd_ok (dofZ (sec t)) (dmul micro (dofZ (usec t))) Fs Fp) as [Fn Vn]; [rewrite Vs, Vp; apply fits_small; rewrite Rabs_pos_eq; lra|]. rewrite Vs, Vp in Vn.
  change (dadd (dofZ (sec t)) (dmul micro (dofZ (usec t)))) with (now t) in *. split; [exact Fn|]. split; [exact Vn|]. rewrite Vn.
  assert (RB : rep 4503599627370496) by (replace 4503599627370496 with (IZR 4503599627370496 * bpow radix2 0) by (cbn; lra); apply rep_int; lia).
  split; [rewrite <- RN_0; apply RN_le; lra|apply RN_le_rep; [exact RB|lra]].
Qed.
End Moment.
Lemma now_ok t : ok_moment t -> finite (now t) /\ 0 <= value (now t) <= 4294967296 /\ Rabs (value (now t) - seconds t) <= / 4194304 + / 1000000000000.
Proof.
  intros H. destruct (part_range t (ok_far t H)) as [P1 P2]. destruct (now_far t (ok_far t H)) as (F & V & _). split; [exact F|]. rewrite V.
  destruct H as [[S1 S2] [U1 U2]]. change (2 ^ 32)%Z with 4294967296%Z in S2.
  assert (S3 : 0 <= IZR (sec t)) by (apply IZR_le; lia). assert (S4 : IZR (sec t) <= 4294967295) by (apply IZR_le; lia).
  assert (U3 : 0 <= IZR (usec t)) by (apply IZR_le; lia). assert (U4 : IZR (usec t) <= 999999) by (apply IZR_le; lia).
  assert (RB : rep 4294967296) by (replace 4294967296 with (IZR 4294967296 * bpow radix2 0) by (cbn; lra); apply rep_int; lia). apply Rabs_le_inv in P2. split.
  - split; [rewrite <- RN_0; apply RN_le; lra|apply RN_le_rep; [exact RB|lra]].
  - assert (E := RN_abs_error (IZR (sec t) + part t)). apply Rabs_le. assert (B : Rabs (IZR (sec t) + part t) < 4294967296) by (rewrite Rabs_pos_eq; lra).
    specialize (E B). apply Rabs_le_inv in E. unfold seconds. lra.
Qed.

Lemma now_mono a b : far_moment a -> far_moment b -> not_after a b -> value (now a) <= value (now b).
Proof.
  intros Ha Hb L. destruct (now_far a Ha) as (_ & -> & _). destruct (now_far b Hb) as (_ & -> & _). apply RN_le.
  pose proof (part_range a Ha) as [Pa _]. pose proof (part_range b Hb) as [Pb _]. unfold not_after in L. destruct Ha as [_ Ua], Hb as [_ Ub].
  destruct (Z.eq_dec (sec a) (sec b)) as [E|N].
  - rewrite E. apply Rplus_le_compat_l. unfold part. apply RN_le. apply Rmult_le_compat_l; [pose proof m6_near; lra|]. apply IZR_le. lia.
  - assert (S : (sec a + 1 <= sec b)%Z) by lia. apply IZR_le in S. rewrite plus_IZR in S. lra.
Qed.
Lemma since_far a b : far_moment a -> far_moment b -> finite (dsub (now b) (now a)) /\ value (dsub (now b) (now a)) = RN (value (now b) - value (now a)).
Proof.
  intros Ha Hb. destruct (now_far a Ha) as (Fa & _ & Ra). destruct (now_far b Hb) as (Fb & _ & Rb).
  apply (dsub_ok (now b) (now a) Fb Fa). apply fits_small. apply Rabs_le; lra.
Qed.
Lemma since_ok a b : ok_moment a -> ok_moment b -> finite (dsub (now b) (now a)) /\ value (dsub (now b) (now a)) = RN (value (now b) - value (now a)) /\
  Rabs (value (dsub (now b) (now a)) - (seconds b - seconds a)) < microsecond.
Proof.
  intros Ha Hb. destruct (now_ok a Ha) as (Fa & Ra & Ea). destruct (now_ok b Hb) as (Fb & Rb & Eb).
  destruct (since_far a b (ok_far a Ha) (ok_far b Hb)) as [F V]. split; [exact F|]. split; [exact V|]. rewrite V.
  destruct (RN_plus_error (value (now b)) (- value (now a))) as (d & D & E); [apply value_rep|apply rep_opp, value_rep|]. unfold Rminus at 2. rewrite E.
  rewrite uro_val in D. apply Rabs_le_inv in D. apply Rabs_le_inv in Ea. apply Rabs_le_inv in Eb. set (x := value (now b) + - value (now a)) in *.
  assert (X : -4294967296 <= x <= 4294967296) by (unfold x; lra).
  assert (Y : - (4294967296 / 9007199254740992) <= x * d <= 4294967296 / 9007199254740992) by (split; nra).
  unfold microsecond. apply Rabs_def1; unfold x in *; lra.
Qed.

(* a microsecond after a second of 2514 or later is lost *)
Lemma now_late s : (2 ^ 34 <= s < 2 ^ 52)%Z -> value (now (mkMoment s 0)) = IZR s /\ value (now (mkMoment s 1)) = IZR s.
Proof.
  intros H. change (2 ^ 34)%Z with 17179869184%Z in H. change (2 ^ 52)%Z with 4503599627370496%Z in H.
  assert (RS : rep (IZR s)) by (replace (IZR s) with (IZR s * bpow radix2 0) by (cbn; lra); apply rep_int; lia).
  assert (S1 : 17179869184 <= IZR s) by (apply IZR_le; lia).
  assert (F0 : far_moment (mkMoment s 0)) by (split; cbn; lia). assert (F1 : far_moment (mkMoment s 1)) by (split; cbn; lia).
  destruct (now_far _ F0) as (_ & -> & _). destruct (now_far _ F1) as (_ & -> & _). destruct (part_range _ F1) as [P1 P2]. cbn [sec usec] in *.
  split.
  - unfold part. cbn [usec]. rewrite Rmult_0_r, RN_0, Rplus_0_r. apply RN_id. exact RS.
  - apply Rle_antisym; [|rewrite <- (RN_id (IZR s) RS) at 1; apply RN_le; lra].
    unfold RN. apply round_N_le_midp; [typeclasses eauto|exact RS|].
    rewrite succ_eq_pos by lra. assert (U : bpow radix2 (-18) <= ulp radix2 fx (IZR s)).
    { rewrite ulp_neq_0 by lra. unfold cexp. apply bpow_le. assert (M : (35 <= mag radix2 (IZR s))%Z) by (apply mag_ge_bpow; cbn; rewrite Rabs_pos_eq; lra).
      unfold fx, SpecFloat.fexp, SpecFloat.emin. lia. }
    cbn in U. apply Rabs_le_inv in P2. lra.
Qed.

(* ---- programs ---- *)
Lemma calls_app l : forall s l', exists s', calls s (l ++ l') = calls s l ++ calls s' l' /\ (Forall (fun c => fst c <> Tic) l -> s' = s).
Proof.
  induction l as [|[c t] l IH]; intros s l'; [exists s; auto|]. cbn [app calls]. destruct (step s c t) as [r s1] eqn:E. destruct (IH s1 l') as (s' & A & B). exists s'. split; [rewrite A; reflexivity|].
  intros F. inversion F as [|? ? N F']; subst. rewrite B by auto. destruct c; cbn [step fst] in *; inversion E; subst; auto. contradiction.
Qed.
Lemma calls_length l : forall s, length (calls s l) = length l.
Proof. induction l as [|[c t] l IH]; intros s; [reflexivity|]. cbn [calls length]. destruct (step s c t). cbn [length]. rewrite IH. reflexivity. Qed.
