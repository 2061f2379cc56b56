From Coq Require Import Arith Lia Reals Lra List Bool.
Import ListNotations.
From Verif Require Import S_Lanczos M_Lanczos L_Lanczos M_Sapps L_Sapps L_Sapps2.
Open Scope R_scope.

Lemma sum_trunc : forall m k x, (k <= m)%nat -> (forall i, (k <= i < m)%nat -> x i = 0) -> sum m x = sum k x.
Proof.
  induction m; intros k x Hk H; [replace k with 0%nat by lia; reflexivity|].
  destruct (Nat.eq_dec k (S m)); [subst; reflexivity|]. simpl.
  rewrite (IHm k), (H m) by (intros; try apply H; lia). lra.
Qed.

Lemma sum_shift : forall m (F : nat -> R), sum m (fun r => F (S r)) = sum m F + F m - F 0%nat.
Proof. induction m; intros; simpl; [lra|]. rewrite IHm. lra. Qed.

(* columns of V * Q *)
Lemma back_spec : forall cnt m kev i q v0 v',
  (forall c x, (c < m - i)%nat -> v' c x = v0 c x) -> (i + cnt <= m)%nat ->
  (forall t x, (i <= t < i + cnt)%nat ->
     back m kev cnt i q v' (m - S t)%nat x = combine (m - t) v0 (fun r => q r (kev - S t)%nat) x) /\
  (forall c x, (m - i <= c)%nat -> back m kev cnt i q v' c x = v' c x).
Proof.
  induction cnt; intros m kev i q v0 v' H Hi; simpl.
  { split; intros; [lia|reflexivity]. }
  set (v1 := put v' (m - S i)%nat (combine (m - i) v' (fun r => q r (kev - S i)%nat))).
  destruct (IHcnt m kev (S i) q v0 v1) as [A B].
  - intros c x Hc. unfold v1. rewrite put_other by lia. apply H. lia.
  - lia.
  - split.
    + intros t x Ht. destruct (Nat.eq_dec t i) as [->|].
      * rewrite B by lia. unfold v1. rewrite put_same. unfold combine. apply sum_ext.
        intros a Ha. rewrite H by lia. reflexivity.
      * apply A. lia.
    + intros c x Hc. rewrite B by lia. unfold v1. rewrite put_other by lia. reflexivity.
Qed.

Lemma identity_good : forall m d b, (forall c, (0 < c < m)%nat -> 0 <= b c) ->
  good m d b 0 0 (d, b, fun r c => if Nat.eqb r c then 1 else 0).
Proof.
  intros m d b Hp. split; [|split; [|split]]; auto.
  - intros r Hr c Hc. unfold hq.
    destruct (Nat.eq_dec r c) as [->|N].
    + destruct (Nat.eq_dec c 0) as [->|].
      * simpl. rewrite eff_0. lra.
      * dec. lra.
    + destruct (Nat.eq_dec r (S c)) as [->|].
      * dec. destruct c; simpl; rewrite ?eff_0; dec; lra.
      * destruct (Nat.eq_dec c (S r)) as [->|].
        -- dec. destruct r; simpl; rewrite ?eff_0; dec; lra.
        -- dec. lra.
  - intros a c Ha Hc. unfold gram.
    destruct (Nat.eqb_spec a c) as [->|N].
    + rewrite (sum_one m c); auto.
      * rewrite Nat.eqb_refl. lra.
      * intros i Hi Ni. dec. lra.
    + apply sum_0. intros i Hi. destruct (Nat.eqb_spec i a), (Nat.eqb_spec i c); try lra. lia.
  - intros r c Hr Hc L. destruct (Nat.eqb_spec r c); auto.
    destruct (Nat.ltb_spec c 0); lia.
Qed.

(* the factorization in terms of the rows of Q *)
Lemma mul_columns : forall n A m v d b f q c i,
  (forall c i, (c < m)%nat -> (i < n)%nat ->
     mul n A (v c) i
     = (if Nat.eqb c 0 then 0 else b c * v (c - 1)%nat i) + d c * v c i
       + (if Nat.eqb (S c) m then f i else b (S c) * v (S c) i)) ->
  (0 < m)%nat -> (i < n)%nat ->
  mul n A (combine m v (fun r => q r c)) i
  = sum m (fun r => v r i * hq m d b q r c) + f i * q (m - 1)%nat c.
Proof.
  intros n A m v d b f q c i H Hm Hi. rewrite mul_combine.
  rewrite (sum_ext m _ (fun r => (eff m b r * v (r - 1)%nat i * q r c + d r * v r i * q r c
      + eff m b (S r) * v (S r) i * q r c) + (if Nat.eqb (S r) m then f i else 0) * q r c)).
  2:{ intros r Hr. rewrite H by auto.
      assert (E1 : (if Nat.eqb r 0 then 0 else b r * v (r - 1)%nat i) = eff m b r * v (r - 1)%nat i).
      { destruct (Nat.eqb_spec r 0); [subst; rewrite eff_0; lra|]. rewrite eff_in by lia. reflexivity. }
      rewrite E1. destruct (Nat.eqb_spec (S r) m).
      - rewrite (eff_m m b (S r)) by lia. ring.
      - rewrite (eff_in m b (S r)) by lia. ring. }
  rewrite sum_plus. f_equal.
  2:{ rewrite (sum_one m (m - 1)); [|lia|].
      - dec. reflexivity.
      - intros r Hr N. dec. lra. }
  unfold hq. rewrite !sum_plus.
  rewrite (sum_ext m (fun r => v r i * _) (fun r => (v r i * (eff m b r * q (r - 1)%nat c) + v r i * d r * q r c)
     + v r i * (eff m b (S r) * q (S r) c))) by (intros; ring).
  rewrite !sum_plus.
  assert (E2 : sum m (fun r => eff m b r * v (r - 1)%nat i * q r c)
               = sum m (fun r => v r i * (eff m b (S r) * q (S r) c))).
  { transitivity (sum m (fun r => (fun t => eff m b t * v (t - 1)%nat i * q t c) (S r))).
    - rewrite (sum_shift m (fun t => eff m b t * v (t - 1)%nat i * q t c)).
      rewrite eff_0, (eff_m m b m) by lia. lra.
    - apply sum_ext. intros r Hr. cbv beta. replace (S r - 1)%nat with r by lia. ring. }
  assert (E3 : sum m (fun r => v r i * (eff m b r * q (r - 1)%nat c))
               = sum m (fun r => eff m b (S r) * v (S r) i * q r c)).
  { transitivity (sum m (fun r => (fun t => v t i * (eff m b t * q (t - 1)%nat c)) (S r))).
    - rewrite (sum_shift m (fun t => v t i * (eff m b t * q (t - 1)%nat c))).
      rewrite eff_0, (eff_m m b m) by lia. lra.
    - apply sum_ext. intros r Hr. cbv beta. replace (S r - 1)%nat with r by lia. ring. }
  rewrite E2, E3.
  rewrite (sum_ext m (fun r => d r * v r i * q r c) (fun r => v r i * d r * q r c)) by (intros; ring).
  lra.
Qed.

Lemma dot_columns : forall n m v q a b, orthonormal n m v ->
  dot n (combine m v (fun r => q r a)) (combine m v (fun r => q r b)) = gram m q a b.
Proof.
  intros n m v q a b Ho. rewrite dot_combine. unfold gram. apply sum_ext. intros r Hr.
  rewrite dot_comm, dot_combine. f_equal.
  rewrite (sum_one m r); auto.
  - rewrite Ho, Nat.eqb_refl by auto. lra.
  - intros t Ht N. rewrite Ho by auto. dec. lra.
Qed.

(* dsapps keeps the factorization *)
Lemma sapps_lanczos : forall lartg n A kev shifts s,
  rotation lartg -> (0 < kev)%nat ->
  lanczos n A (kev + length shifts) (lv s) (ld s) (lb s) (lres s) ->
  exists s', sapps lartg 0 n kev shifts s = Some s' /\
    lanczos n A kev (lv s') (ld s') (lb s') (lres s') /\ lnrm s' = len n (lres s') /\
    lrnd s' = lrnd s.
Proof.
  intros lartg n A kev shifts s Hrot Hkev HL. unfold sapps.
  destruct shifts as [|sh0 rest] eqn:Esh.
  { eexists. split; [reflexivity|]. simpl in *. rewrite Nat.add_0_r in HL. auto. }
  rewrite <- Esh in *. assert (Hnp : (0 < length shifts)%nat) by (rewrite Esh; simpl; lia). clear sh0 rest Esh.
  set (np := length shifts) in *. set (m := (kev + np)%nat) in *.
  destruct HL as (Ho & Hf & Hr & Hb).
  destruct (sweeps_good lartg Hrot m (ld s) (lb s) shifts 0 0 (ld s) (lb s)
     (fun r c => if Nat.eqb r c then 1 else 0)) as (itop & d & b & q & E & Hi & HG).
  { unfold m. lia. } { reflexivity. } { apply identity_good. auto. }
  rewrite E. clear E. fold np in HG. cbn [Nat.add] in HG.
  destruct HG as (Hrow & Hg & Hband & Hp).
  set (b' := settle 0 (m - 1 - itop) itop d b).
  assert (Eb : forall c, b' c = b c) by (apply settle_same with m; auto; lia).
  set (W := fun c => combine m (lv s) (fun r => q r c)).
  set (vb := back m kev kev 0 q (lv s)).
  set (vc := fun c => if Nat.ltb c kev then vb (np + c)%nat else vb c).
  set (v' := if Rlt_dec 0 (b' kev) then put vc kev (combine m (lv s) (fun r => q r kev)) else vc).
  assert (Hvc : forall c x, (c < kev)%nat -> vc c x = W c x).
  { intros c x Hc. unfold vc. destruct (Nat.ltb_spec c kev); [|lia].
    destruct (back_spec kev m kev 0 q (lv s) (lv s)) as [A1 _]; [auto|unfold m; lia|].
    specialize (A1 (kev - 1 - c)%nat x ltac:(lia)).
    replace (m - S (kev - 1 - c))%nat with (np + c)%nat in A1 by (unfold m; lia).
    unfold vb. rewrite A1. replace (kev - S (kev - 1 - c))%nat with c by lia.
    unfold W, combine. symmetry. apply sum_trunc; [unfold m; lia|].
    intros r Hrr. rewrite (Hband r c); [lra|lia|unfold m; lia|].
    destruct (Nat.ltb_spec c 0); lia. }
  assert (Hv' : forall c x, (c < kev)%nat -> v' c x = W c x).
  { intros c x Hc. unfold v'. destruct (Rlt_dec 0 (b' kev)); [|apply Hvc; auto].
    rewrite put_other by lia. apply Hvc; auto. }
  set (sigma := q (m - 1)%nat (kev - 1)%nat).
  set (r0 := fun i => sigma * lres s i).
  set (r' := if Rlt_dec 0 (b' kev) then fun i => r0 i + b' kev * v' kev i else r0).
  assert (Hr' : forall i, r' i = sigma * lres s i + eff m b kev * W kev i).
  { intros i. unfold r', v', r0. rewrite eff_in by (unfold m; lia).
    destruct (Rlt_dec 0 (b' kev)).
    - rewrite put_same, Eb. reflexivity.
    - assert (Z : b kev = 0).
      { pose proof (Hp kev ltac:(unfold m; lia)). rewrite Eb in n0. lra. }
      rewrite Z. ring. }
  exists (Lst v' d b' r' (len n r') (lrnd s)). split; [reflexivity|].
  split; [|split; reflexivity]. cbn [lv ld lb lres].
  assert (HW : forall a c, (a < m)%nat -> (c < m)%nat -> dot n (W a) (W c) = if Nat.eqb a c then 1 else 0).
  { intros a c Ha Hc. unfold W. rewrite dot_columns by auto. apply Hg; auto. }
  assert (HWf : forall a, (a < m)%nat -> dot n (W a) (lres s) = 0).
  { intros a Ha. rewrite dot_comm. unfold W. rewrite dot_combine. apply sum_0.
    intros r Hrr. rewrite dot_comm, Hf by auto. lra. }
  assert (HA : forall c i, (c < m)%nat -> (i < n)%nat ->
    mul n A (W c) i = eff m b c * W (c - 1)%nat i + d c * W c i + eff m b (S c) * W (S c) i
                      + lres s i * q (m - 1)%nat c).
  { intros c i Hc Hin. unfold W at 1.
    rewrite (mul_columns n A m (lv s) (ld s) (lb s) (lres s) q c i Hr) by (auto; lia).
    f_equal. unfold W, combine. rewrite <- !sum_scal, <- !sum_plus. apply sum_ext.
    intros r Hrr. rewrite (Hrow r Hrr c Hc). ring. }
  split; [|split; [|split]].
  - intros a c Ha Hc. rewrite (dot_ext n (v' a) (v' c) (W a) (W c)) by (intros; apply Hv'; auto).
    apply HW; unfold m; lia.
  - intros a Ha.
    rewrite (dot_ext n (v' a) r' (W a) (fun i => sigma * lres s i + eff m b kev * W kev i))
      by (intros; auto).
    rewrite dot_plus, !dot_scal, HWf, HW by (unfold m; lia). dec. lra.
  - intros c i Hc Hin. rewrite (mul_ext n A (v' c) (W c)) by (intros; apply Hv'; auto).
    rewrite HA by (auto; unfold m; lia).
    rewrite (Hv' c) by auto.
    assert (E1 : (if Nat.eqb c 0 then 0 else b' c * v' (c - 1)%nat i) = eff m b c * W (c - 1)%nat i).
    { destruct (Nat.eqb_spec c 0); [subst; rewrite eff_0; lra|].
      rewrite Eb, Hv', eff_in by (unfold m; lia). reflexivity. }
    rewrite E1. destruct (Nat.eqb_spec (S c) kev) as [Ec|Nc].
    + rewrite Hr', <- Ec. unfold sigma. replace (kev - 1)%nat with c by lia. ring.
    + rewrite Eb, Hv' by lia. rewrite (eff_in m b (S c)) by (unfold m; lia).
      rewrite (Hband (m - 1)%nat c); [ring|unfold m; lia|unfold m; lia|].
      destruct (Nat.ltb_spec c 0); unfold m; lia.
  - intros c Hc. rewrite Eb. apply Hp. unfold m. lia.
Qed.

(* the whole iteration *)
Definition factored (n : nat) (A : nat -> nat -> R) (m : nat) (x : verdict) : Prop :=
  match x with
  | Factored s =>
      lanczos n A m (lv s) (ld s) (lb s) (lres s) /\ lnrm s = len n (lres s)
  | Subspace k s =>
      (0 < k < m)%nat /\ lanczos n A k (lv s) (ld s) (lb s) (lres s) /\
      forall i, (i < n)%nat -> lres s i = 0
  | NoStart | Broken => False
  end.

Lemma rounds_factored : forall hist lartg n A rand m s,
  rotation lartg -> symmetric n A ->
  (forall shifts, In shifts hist -> (length shifts < m)%nat) ->
  lanczos n A m (lv s) (ld s) (lb s) (lres s) -> lnrm s = len n (lres s) ->
  factored n A m (rounds lartg 0 n A rand m hist s).
Proof.
  induction hist as [|sh rest IH]; intros lartg n A rand m s Hrot Hs Hh HL Hn; cbn [rounds].
  { split; auto. }
  assert (Hl : (length sh < m)%nat) by (apply Hh; left; reflexivity).
  destruct (sapps_lanczos lartg n A (m - length sh) sh s Hrot ltac:(lia)) as (s1 & -> & HL1 & Hn1 & _).
  { replace (m - length sh + length sh)%nat with m by lia. auto. }
  assert (Hk : (0 < m - length sh)%nat) by lia.
  destruct (saitr_lanczos (length sh) n A rand (m - length sh) s1 Hs (or_introl Hk) HL1 Hn1)
    as (info & s2 & -> & Hn2 & _ & [[-> HL2]|(Hi & Hi2 & HL2 & HZ)]).
  - replace (m - length sh + length sh)%nat with m in HL2 by lia.
    apply IH; auto. intros; apply Hh; right; auto.
  - destruct info; [lia|]. split; [lia|]. auto.
Qed.

Lemma saup2_factored : forall lartg n A rand start nev0 np0 hist v d b,
  rotation lartg -> symmetric n A -> (0 < nev0)%nat ->
  (forall shifts, In shifts hist -> (length shifts < nev0 + np0)%nat) ->
  len n (match start with Some r => r | None => rand 0%nat end) <> 0 ->
  factored n A (nev0 + np0) (saup2 lartg 0 n A rand start nev0 np0 hist v d b).
Proof.
  intros lartg n A rand start nev0 np0 hist v d b Hrot Hs Hnev Hh Hstart. unfold saup2.
  assert (E : exists r drawn, match start with Some r => (r, 0%nat) | None => (rand 0%nat, 1%nat) end = (r, drawn)
     /\ len n r <> 0).
  { destruct start; eauto. }
  destruct E as (r & drawn & -> & Hr).
  destruct (Req_EM_T (len n r) 0); [contradiction|].
  destruct (saitr_lanczos nev0 n A rand 0 (Lst v d b r (len n r) drawn) Hs) as (info & s1 & -> & Hn1 & _ & C).
  - right. cbn. pose proof (len_nonneg n r). lra.
  - split; [intros a c Ha; lia|]. split; [intros; lia|]. split; intros; lia.
  - reflexivity.
  - destruct C as [[-> HL1]|(Hi & Hi2 & HL1 & HZ)].
    + cbn [Nat.add] in HL1.
      destruct (saitr_lanczos np0 n A rand nev0 s1 Hs (or_introl Hnev) HL1 Hn1)
        as (info & s2 & -> & Hn2 & _ & [[-> HL2]|(Hi & Hi2 & HL2 & HZ)]).
      * apply rounds_factored; auto.
      * destruct info; [lia|]. split; [lia|]. auto.
    + destruct info; [lia|]. split; [lia|]. auto.
Qed.

(* ---- Ritz values ---- *)

Lemma tridiagonal_eff : forall m d b y c, (c < m)%nat ->
  tridiagonal m d b y c = eff m b c * y (c - 1)%nat + d c * y c + eff m b (S c) * y (S c).
Proof.
  intros m d b y c Hc. unfold tridiagonal. f_equal; [f_equal|].
  - destruct (Nat.eqb_spec c 0); [subst; rewrite eff_0; lra|]. rewrite eff_in by lia. reflexivity.
  - destruct (Nat.eqb_spec (S c) m); [rewrite eff_m by lia; lra|]. rewrite eff_in by lia. reflexivity.
Qed.

Lemma ritz_residual : forall n A m v d b f y theta,
  (0 < m)%nat -> lanczos n A m v d b f ->
  (forall c, (c < m)%nat -> tridiagonal m d b y c = theta * y c) ->
  len n (combine m v y) = len m y /\
  len n (fun i => mul n A (combine m v y) i - theta * combine m v y i)
  = len n f * Rabs (y (m - 1)%nat).
Proof.
  intros n A m v d b f y theta Hm (Ho & Hf & Hr & Hb) Hy. split.
  - unfold len. f_equal.
    exact (dot_columns n m v (fun r _ => y r) 0 0 Ho).
  - assert (E : forall i, (i < n)%nat ->
      mul n A (combine m v y) i - theta * combine m v y i = y (m - 1)%nat * f i).
    { intros i Hi.
      assert (M : mul n A (combine m v y) i = sum m (fun r => v r i * hq m d b (fun r _ => y r) r 0) + f i * y (m - 1)%nat)
        by exact (mul_columns n A m v d b f (fun r _ => y r) 0 i Hr Hm Hi).
      rewrite M.
      rewrite (sum_ext m _ (fun r => theta * (v r i * y r))).
      - rewrite sum_scal. unfold combine. ring.
      - intros r Hrr. unfold hq. rewrite <- tridiagonal_eff by auto. rewrite Hy by auto. ring. }
    rewrite (len_ext n _ (fun i => y (m - 1)%nat * f i)) by auto.
    unfold len. rewrite dot_scal, dot_comm, dot_scal.
    replace (y (m - 1)%nat * (y (m - 1)%nat * dot n f f)) with ((y (m - 1)%nat * y (m - 1)%nat) * dot n f f) by ring.
    rewrite sqrt_mult by (try apply dot_self; apply Rle_0_sqr).
    change (y (m - 1)%nat * y (m - 1)%nat) with (Rsqr (y (m - 1)%nat)).
    rewrite sqrt_Rsqr_abs. ring.
Qed.
