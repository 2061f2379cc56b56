(* What the implicit shifts do to the first vector *)
From Coq Require Import Arith Lia Reals Lra List Bool.
Import ListNotations.
From Verif Require Import S_Lanczos M_Lanczos L_Lanczos M_Sapps L_Sapps L_Sapps2 L_Sapps3.
Open Scope R_scope.

Lemma filter_scal : forall n A shifts c x y, (forall i, (i < n)%nat -> x i = c * y i) ->
  forall i, (i < n)%nat -> filter n A shifts x i = c * filter n A shifts y i.
Proof.
  induction shifts as [|s rest IH]; intros c x y E i Hi; cbn [filter]; [auto|].
  apply IH; auto. intros k Hk. rewrite E by auto.
  rewrite (mul_ext n A x (fun j => c * y j)) by auto. unfold mul.
  rewrite (sum_ext n _ (fun j => c * (A k j * y j))) by (intros; ring). rewrite sum_scal. ring.
Qed.

Lemma rot_q_0 : forall lim i c s q r, (0 < i)%nat -> rot_q lim i c s q r 0%nat = q r 0%nat.
Proof.
  intros. unfold rot_q. destruct (Nat.ltb r lim); auto. rewrite !put_other by lia. reflexivity.
Qed.

Lemma chase_0 : forall lartg m jj cnt i c s d b q d' b' q', (0 < i)%nat ->
  chase lartg m jj cnt i c s (d, b, q) = (d', b', q') -> forall r, q' r 0%nat = q r 0%nat.
Proof.
  induction cnt; intros i c s d b q d' b' q' Hi E r; cbn [chase] in E.
  - injection E as <- <- <-. reflexivity.
  - destruct (lartg (b i) (s * b (S i))) as [[c1 s1] r1].
    destruct (if Rlt_dec r1 0 then (- c1, - s1, - r1) else (c1, s1, r1)) as [[c2 s2] r2].
    unfold turn in E. apply IHcnt with (r := r) in E; [|lia]. rewrite E. apply rot_q_0. auto.
Qed.

Lemma fix_sign_0 : forall m iend d b q d' b' q',
  fix_sign m iend (d, b, q) = (d', b', q') ->
  exists e, (forall r, (r < m)%nat -> q r 0%nat = e * q' r 0%nat) /\ ((0 < iend)%nat -> e = 1).
Proof.
  intros m iend d b q d' b' q' E. unfold fix_sign in E. destruct (Rlt_dec (b iend) 0).
  - injection E as <- <- <-. destruct (Nat.eq_dec iend 0) as [->|N].
    + exists (-1). split; [|lia]. intros r' Hr. destruct (Nat.ltb_spec r' m); [|lia].
      rewrite put_same. ring.
    + exists 1. split; auto. intros r' Hr. destruct (Nat.ltb_spec r' m); [|lia].
      rewrite put_other by lia. ring.
  - injection E as <- <- <-. exists 1. split; auto. intros. ring.
Qed.

Section Filter.
Context (lartg : R -> R -> R * R * R) (Hrot : rotation lartg) (m : nat) (d0 b0 : nat -> R).

(* a block that does not begin at 0 *)
Lemma block_far : forall jj sh i d b q iend d' b' q', (0 < i < m)%nat ->
  (forall c, (0 < c < m)%nat -> 0 <= b c) ->
  block lartg 0 m jj sh i (d, b, q) = (iend, (d', b', q')) ->
  forall r, (r < m)%nat -> q' r 0%nat = q r 0%nat.
Proof.
  intros jj sh i d b q iend d' b' q' Hi Hp E r Hr. unfold block in E.
  destruct (find_end 0 m (m - 1 - i) i d b) as [ie b1] eqn:F.
  destruct (find_end_good m d0 b0 (m - 1 - i) i d b ie b1 ltac:(lia) ltac:(lia) Hp F) as (L1 & L2 & L3).
  pose proof (f_equal fst E) as E1. apply (f_equal snd) in E. cbn [fst snd] in E, E1. subst iend.
  destruct (Nat.ltb_spec i ie).
  - destruct (lartg (d i - sh) (b1 (S i))) as [[c s] r1].
    destruct (chase lartg m jj (ie - 1 - i) (S i) c s (turn m jj i c s (d, b1, q))) as [[d2 b2] q2] eqn:C.
    unfold turn in C. apply chase_0 with (r := r) in C; [|lia]. rewrite rot_q_0 in C by lia.
    destruct (fix_sign_0 m ie d2 b2 q2 d' b' q' E) as (e & Q1 & Q2).
    rewrite <- C, (Q1 r Hr), Q2 by lia. ring.
  - destruct (fix_sign_0 m ie d b1 q d' b' q' E) as (e & Q1 & Q2).
    rewrite (Q1 r Hr), Q2 by lia. ring.
Qed.

(* the block at 0 *)
Lemma block_first : forall j sh d b q iend d' b' q', (0 < m)%nat ->
  good m d0 b0 j 0 (d, b, q) ->
  block lartg 0 m (S j) sh 0 (d, b, q) = (iend, (d', b', q')) ->
  exists rho, forall r, (r < m)%nat -> hq m d0 b0 q r 0%nat - sh * q r 0%nat = rho * q' r 0%nat.
Proof.
  intros j sh d b q iend d' b' q' Hm HG E. unfold block in E.
  destruct (find_end 0 m (m - 1 - 0) 0 d b) as [ie b1] eqn:F.
  destruct (find_end_good m d0 b0 (m - 1 - 0) 0 d b ie b1 ltac:(lia) ltac:(lia) ltac:(apply HG) F) as (L1 & L2 & L3).
  pose proof (f_equal fst E) as E1. apply (f_equal snd) in E. cbn [fst snd] in E, E1. subst iend. destruct HG as (Hrow & _ & Hband & _).
  assert (H0 : forall r, (r < m)%nat -> hq m d0 b0 q r 0%nat = d 0%nat * q r 0%nat + eff m b 1 * q r 1%nat).
  { intros r Hr. rewrite (Hrow r Hr 0%nat Hm), eff_0. ring. }
  destruct (Nat.ltb_spec 0 ie).
  - pose proof (Hrot (d 0%nat - sh) (b1 1%nat)) as HR.
    destruct (lartg (d 0%nat - sh) (b1 1%nat)) as [[c s] r1]. destruct HR as (R1 & R2 & R3).
    assert (Ef : d 0%nat - sh = c * r1).
    { replace (d 0%nat - sh) with ((c * c + s * s) * (d 0%nat - sh)) by (rewrite R1; ring).
      replace ((c * c + s * s) * (d 0%nat - sh))
        with (c * (c * (d 0%nat - sh) + s * b1 1%nat) - s * (- s * (d 0%nat - sh) + c * b1 1%nat)) by ring.
      rewrite R2, R3. ring. }
    assert (Eg : b1 1%nat = s * r1).
    { replace (b1 1%nat) with ((c * c + s * s) * b1 1%nat) by (rewrite R1; ring).
      replace ((c * c + s * s) * b1 1%nat)
        with (s * (c * (d 0%nat - sh) + s * b1 1%nat) + c * (- s * (d 0%nat - sh) + c * b1 1%nat)) by ring.
      rewrite R2, R3. ring. }
    destruct (chase lartg m (S j) (ie - 1 - 0) 1 c s (turn m (S j) 0 c s (d, b1, q))) as [[d2 b2] q2] eqn:C.
    unfold turn in C.
    destruct (fix_sign_0 m ie d2 b2 q2 d' b' q' E) as (e & Q1 & Q2).
    exists r1. intros r Hr. pose proof (chase_0 _ _ _ _ 1%nat _ _ _ _ _ _ _ _ ltac:(lia) C r) as C'.
    rewrite (rot_q_full m j 0 c s q Hband) in C' by lia. unfold turned in C'. rewrite put_same in C'.
    replace (q' r 0%nat) with (q2 r 0%nat) by (rewrite (Q1 r Hr), Q2 by lia; ring).
    rewrite C', H0 by auto. rewrite eff_in by lia. rewrite <- L2, Eg.
    replace (d 0%nat) with (c * r1 + sh) by lra. ring.
  - assert (ie = 0%nat) by lia. subst ie.
    destruct (fix_sign_0 m 0 d b1 q d' b' q' E) as (e & Q1 & _).
    exists ((d 0%nat - sh) * e). intros r Hr. rewrite H0, L3, (Q1 r Hr) by auto. ring.
Qed.

Lemma blocks_far : forall fuel j sh i d b q d' b' q', (0 < i < m)%nat -> (m <= fuel + i)%nat ->
  eff m b i = 0 -> good m d0 b0 j i (d, b, q) ->
  blocks lartg 0 m (S j) sh fuel i (d, b, q) = Some (d', b', q') ->
  forall r, (r < m)%nat -> q' r 0%nat = q r 0%nat.
Proof.
  induction fuel; intros j sh i d b q d' b' q' Hi Hf H0 HG E r Hr; [lia|]. cbn [blocks] in E.
  destruct (block_good lartg Hrot m d0 b0 j sh i d b q ltac:(lia) H0 HG) as (iend & d1 & b1 & q1 & EB & L & Z & HG' & _).
  pose proof (block_far _ _ _ _ _ _ _ _ _ _ Hi ltac:(apply HG) EB r Hr) as E1. rewrite EB in E.
  destruct (Nat.ltb_spec iend (m - 1)).
  - rewrite <- E1. eapply IHfuel; [| | | |exact E|]; eauto; lia.
  - injection E as <- <- <-. exact E1.
Qed.

Lemma blocks_first : forall j sh d b q d' b' q', (0 < m)%nat ->
  good m d0 b0 j 0 (d, b, q) ->
  blocks lartg 0 m (S j) sh m 0 (d, b, q) = Some (d', b', q') ->
  exists rho, forall r, (r < m)%nat -> hq m d0 b0 q r 0%nat - sh * q r 0%nat = rho * q' r 0%nat.
Proof.
  intros j sh d b q d' b' q' Hm HG E. destruct m as [|m'] eqn:Em; [lia|]. rewrite <- Em in *.
  rewrite Em in E at 2. cbn [blocks] in E.
  destruct (block_good lartg Hrot m d0 b0 j sh 0 d b q ltac:(lia) (eff_0 m b) HG) as (iend & d1 & b1 & q1 & EB & L & Z & HG' & _).
  destruct (block_first _ _ _ _ _ _ _ _ _ Hm HG EB) as (rho & Hrho). rewrite EB in E.
  exists rho. intros r Hr. rewrite (Hrho r Hr). f_equal.
  destruct (Nat.ltb_spec iend (m - 1)).
  - symmetry. eapply blocks_far; [| | | |exact E|]; eauto; lia.
  - injection E as <- <- <-. reflexivity.
Qed.

Lemma raise_top_0 : forall cnt i b, (i + cnt < m)%nat -> (forall c, (0 < c < m)%nat -> 0 <= b c) ->
  ((0 < i)%nat -> eff m b 1 = 0) -> (0 < raise_top cnt i b)%nat -> eff m b 1 = 0.
Proof.
  induction cnt; intros i b Hi Hp H0 H; cbn [raise_top] in H; [auto|].
  destruct (Rlt_dec 0 (b (S i))); [auto|]. apply (IHcnt (S i)); auto; [lia|].
  intros _. destruct i; [|apply H0; lia]. rewrite eff_in by lia. pose proof (Hp 1%nat ltac:(lia)). lra.
Qed.

Context (n : nat) (A : nat -> nat -> R) (v : nat -> vec) (f : vec).
Context (HL : lanczos n A m v d0 b0 f).

Lemma sweeps_filter : forall shifts j i d b q i' d' b' q',
  (i < m)%nat -> eff m b i = 0 -> ((0 < i)%nat -> eff m b 1 = 0) ->
  good m d0 b0 j 0 (d, b, q) -> (j + length shifts < m)%nat ->
  sweeps lartg 0 m (S j) i shifts (d, b, q) = Some (i', (d', b', q')) ->
  exists rho, forall x, (x < n)%nat ->
    filter n A shifts (combine m v (fun r => q r 0%nat)) x
    = rho * combine m v (fun r => q' r 0%nat) x.
Proof.
  induction shifts as [|sh rest IH]; intros j i d b q i' d' b' q' Hi H0 H1 HG Hj E; cbn [sweeps] in E.
  { injection E as <- <- <- <-. exists 1. intros. cbn [filter]. ring. }
  destruct (blocks_good lartg Hrot m d0 b0 m j sh i d b q Hi ltac:(lia) H0 (good_raise m d0 b0 j 0 i d b q ltac:(lia) HG))
    as (d1 & b1 & q1 & EB & G1 & Hk).
  rewrite EB in E.
  assert (Step : exists rho, forall r, (r < m)%nat -> hq m d0 b0 q r 0%nat - sh * q r 0%nat = rho * q1 r 0%nat).
  { destruct (Nat.eq_dec i 0) as [->|Ni].
    - eapply blocks_first; eauto.
    - exists (d 0%nat - sh). intros r Hr.
      rewrite (blocks_far m j sh i d b q d1 b1 q1) by (auto; try lia; apply good_raise with 0%nat; auto; lia).
      destruct HG as (Hrow & _). rewrite (Hrow r Hr 0%nat) by lia. rewrite eff_0, H1 by lia. ring. }
  destruct Step as (rho & Hrho).
  destruct (raise_top_spec m (m - 1 - i) i b1) as [A1 A2].
  - lia.
  - apply G1.
  - destruct (Nat.eq_dec i 0) as [->|]; [apply eff_0|].
    rewrite eff_in in * by lia. rewrite Hk by lia. auto.
  - destruct (IH (S j) (raise_top (m - 1 - i) i b1) d1 b1 q1 i' d' b' q') as (rho' & Hf); auto; try lia.
    + intros H. eapply raise_top_0; [| | |exact H]; [lia|apply G1|].
      intros Hp. rewrite eff_in in * by lia. rewrite Hk by lia. auto.
    + apply good_next; auto.
    + simpl in Hj. lia.
    + exists (rho * rho'). intros x Hx. cbn [filter].
      rewrite (filter_scal n A rest rho _ (combine m v (fun r => q1 r 0%nat))); auto.
      * rewrite (Hf x Hx). ring.
      * intros k Hk'. destruct HL as (Ho & Hfo & Hr & Hb).
        rewrite (mul_columns n A m v d0 b0 f q 0 k Hr) by (auto; lia).
        destruct HG as (_ & _ & Hband & _).
        rewrite (Hband (m - 1)%nat 0%nat); [|lia|lia|simpl in *; lia].
        unfold combine. rewrite Rmult_0_r, Rplus_0_r, <- !sum_scal, <- sum_minus. apply sum_ext.
        intros r Hr'. replace (rho * (v r k * q1 r 0%nat)) with (v r k * (rho * q1 r 0%nat)) by ring.
        rewrite <- Hrho by auto. ring.
Qed.
End Filter.

Lemma sapps_filter : forall lartg n A kev shifts s s',
  rotation lartg -> (0 < kev)%nat ->
  lanczos n A (kev + length shifts) (lv s) (ld s) (lb s) (lres s) ->
  sapps lartg 0 n kev shifts s = Some s' ->
  exists rho, forall i, (i < n)%nat -> filter n A shifts (lv s 0%nat) i = rho * lv s' 0%nat i.
Proof.
  intros lartg n A kev shifts s s' Hrot Hkev HL. unfold sapps.
  destruct shifts as [|sh0 rest] eqn:Esh.
  { intros E. injection E as <-. exists 1. intros. cbn [filter lv]. ring. }
  rewrite <- Esh in *. assert (Hnp : (0 < length shifts)%nat) by (rewrite Esh; simpl; lia). clear sh0 rest Esh.
  set (np := length shifts) in *. set (m := (kev + np)%nat) in *.
  pose proof HL as (Ho & Hf & Hr & Hb).
  destruct (sweeps_good lartg Hrot m (ld s) (lb s) shifts 0 0 (ld s) (lb s)
     (fun r c => if Nat.eqb r c then 1 else 0)) as (itop & d & b & q & E & Hi & HG).
  { unfold m. lia. } { reflexivity. } { apply identity_good. auto. }
  destruct (sweeps_filter lartg Hrot m (ld s) (lb s) n A (lv s) (lres s) HL shifts 0 0 (ld s) (lb s)
     (fun r c => if Nat.eqb r c then 1 else 0) itop d b q) as (rho & Hrho); auto.
  { unfold m. lia. } { lia. } { apply identity_good. auto. } { fold np. unfold m. lia. }
  rewrite E. clear E. fold np in HG. cbn [Nat.add] in HG.
  destruct HG as (Hrow & Hg & Hband & Hp).
  set (b' := settle 0 (m - 1 - itop) itop d b).
  intros X. injection X as <-. exists rho. intros i Hin. cbn [lv].
  assert (Ev : combine m (lv s) (fun r => if Nat.eqb r 0 then 1 else 0) i = lv s 0%nat i).
  { unfold combine. rewrite (sum_one m 0).
    - rewrite Nat.eqb_refl. ring.
    - unfold m. lia.
    - intros k _ Nk. destruct (Nat.eqb_spec k 0); [lia|ring]. }
  assert (Ef : filter n A shifts (lv s 0%nat) i
    = filter n A shifts (combine m (lv s) (fun r => if Nat.eqb r 0 then 1 else 0)) i).
  { rewrite <- Rmult_1_l. apply filter_scal; auto. intros k Hk.
    unfold combine. rewrite (sum_one m 0).
    - rewrite Nat.eqb_refl. ring.
    - unfold m. lia.
    - intros t _ Nt. destruct (Nat.eqb_spec t 0); [lia|ring]. }
  rewrite Ef, Hrho by auto. f_equal.
  assert (Ev' : (if Nat.ltb 0 kev then back m kev kev 0 q (lv s) (np + 0)%nat else back m kev kev 0 q (lv s) 0%nat) i
      = combine m (lv s) (fun r => q r 0%nat) i).
  { destruct (Nat.ltb_spec 0 kev); [|lia].
    destruct (back_spec kev m kev 0 q (lv s) (lv s)) as [A1 _]; [auto|unfold m; lia|].
    specialize (A1 (kev - 1)%nat i ltac:(lia)).
    replace (m - S (kev - 1))%nat with (np + 0)%nat in A1 by (unfold m; lia).
    rewrite A1. replace (kev - S (kev - 1))%nat with 0%nat by lia.
    unfold combine. symmetry. apply sum_trunc; [unfold m; lia|].
    intros r Hrr. rewrite (Hband r 0%nat); [lra|lia|unfold m; lia|simpl; lia]. }
  destruct (Rlt_dec 0 (b' kev)); [rewrite put_other by lia|]; rewrite Ev'; reflexivity.
Qed.
