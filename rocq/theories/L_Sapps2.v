From Coq Require Import Arith Lia Reals Lra List Bool.
Import ListNotations.
From Verif Require Import S_Lanczos M_Lanczos L_Lanczos M_Sapps L_Sapps.
Open Scope R_scope.

Lemma bulged_ext : forall m d e i c0 s0 x y d' e' x' y',
  (forall c, (c < m)%nat -> d c = d' c) -> (forall c, e c = e' c) -> (forall c, x c = x' c) ->
  (forall c, y c = y' c) ->
  bulged m d e i c0 s0 x y -> bulged m d' e' i c0 s0 x' y'.
Proof.
  intros m d e i c0 s0 x y d' e' x' y' Ed Ee Ex Ey H c Hc.
  rewrite <- Ey, <- !Ee, <- !Ex, <- Ed by auto. apply H; auto.
Qed.

Lemma plain_ext : forall m d e x y d' e' x' y',
  (forall c, (c < m)%nat -> d c = d' c) -> (forall c, e c = e' c) -> (forall c, x c = x' c) ->
  (forall c, y c = y' c) ->
  plain m d e x y -> plain m d' e' x' y'.
Proof.
  intros m d e x y d' e' x' y' Ed Ee Ex Ey H c Hc.
  rewrite <- Ey, <- !Ee, <- !Ex, <- Ed by auto. apply H; auto.
Qed.

Lemma turned_lin : forall i c s (x y z : nat -> R) a b e k,
  turned i c s (fun k => a * x k + b * y k + e * z k) k
  = a * turned i c s x k + b * turned i c s y k + e * turned i c s z k.
Proof.
  intros. unfold turned, put. destruct (Nat.eqb k i), (Nat.eqb k (S i)); ring.
Qed.

Lemma hq_turned : forall m d0 b0 i c s q q',
  (forall r k, (r < m)%nat -> q' r k = turned i c s (q r) k) ->
  forall r k, (r < m)%nat -> hq m d0 b0 q' r k = turned i c s (hq m d0 b0 q r) k.
Proof.
  intros m d0 b0 i c s q q' E r k Hr. unfold hq. rewrite turned_lin.
  rewrite !E by lia. f_equal.
  destruct (Nat.ltb_spec (S r) m); [rewrite E by lia; reflexivity|].
  rewrite eff_m by lia. ring.
Qed.

Definition unit_gram (m : nat) (q : nat -> nat -> R) : Prop :=
  forall a b, (a < m)%nat -> (b < m)%nat -> gram m q a b = if Nat.eqb a b then 1 else 0.

(* the state between blocks *)
Definition good (m : nat) (d0 b0 : nat -> R) (j i : nat) (x : dbq) : Prop :=
  let '(d, b, q) := x in
  (forall r, (r < m)%nat -> plain m d (eff m b) (q r) (hq m d0 b0 q r)) /\
  unit_gram m q /\ banded m j i q /\
  (forall c, (0 < c < m)%nat -> 0 <= b c).

(* the state while the bulge is at i *)
Definition bulge (m : nat) (d0 b0 : nat -> R) (j i : nat) (c s : R) (x : dbq) : Prop :=
  let '(d, b, q) := x in
  (forall r, (r < m)%nat -> bulged m d (eff m b) i c s (q r) (hq m d0 b0 q r)) /\
  unit_gram m q /\ banded m j i q /\
  (forall c, (0 < c < m)%nat -> c <> i -> 0 <= b c).

Section Sweep.
Context (lartg : R -> R -> R * R * R) (Hrot : rotation lartg) (m : nat) (d0 b0 : nat -> R).

Lemma first_turn : forall j i c s d b q,
  (S i < m)%nat -> c * c + s * s = 1 -> eff m b i = 0 ->
  good m d0 b0 j i (d, b, q) -> bulge m d0 b0 j (S i) c s (turn m (S j) i c s (d, b, q)) /\
  (let '(_, b', _) := turn m (S j) i c s (d, b, q) in forall k, k <> S i -> b' k = b k).
Proof.
  intros j i c s d b q Hi H1 H0 (Hr & Hg & Hb & Hp). unfold turn.
  pose proof (rot_q_full m j i c s q Hb Hi) as E.
  set (q' := rot_q (Nat.min (S i + S j) m) i c s q) in *.
  split; [|intros; apply put_other; auto].
  split; [|split; [|split]].
  - intros r Hrm.
    assert (Ee : eff m b (S i) = b (S i)) by (apply eff_in; lia).
    pose proof (turn_plain m d (eff m b) i c s _ _ Hi H1 H0 (Hr r Hrm)) as T. cbv zeta in T.
    rewrite Ee in T.
    eapply bulged_ext; [| | | |exact T]; auto.
    + intros k. symmetry. apply eff_put. lia.
    + intros k. symmetry. apply E; auto.
    + intros k. symmetry. apply (hq_turned m d0 b0 i c s q q'); auto.
  - unfold unit_gram. eapply turned_gram; eauto.
  - eapply turned_banded; eauto.
  - intros k Hk N. rewrite put_other by auto. auto.
Qed.

Lemma chase_good : forall cnt j i c s d b q,
  (0 < i)%nat -> (i + cnt < m)%nat ->
  bulge m d0 b0 j i c s (d, b, q) ->
  exists c' s' d' b' q', chase lartg m (S j) cnt i c s (d, b, q) = (d', b', q') /\
    bulge m d0 b0 j (i + cnt) c' s' (d', b', q') /\
    (forall k, (k < i \/ i + cnt < k)%nat -> b' k = b k).
Proof.
  induction cnt; intros j i c s d b q Hi Hm HB.
  { exists c, s, d, b, q. rewrite Nat.add_0_r. auto. }
  cbn [chase]. destruct HB as (Hr & Hg & Hb & Hp).
  pose proof (Hrot (b i) (s * b (S i))) as HR.
  destruct (lartg (b i) (s * b (S i))) as [[c1 s1] r1]. destruct HR as (R1 & R2 & R3).
  assert (Ex : exists c2 s2 r2,
    (if Rlt_dec r1 0 then (- c1, - s1, - r1) else (c1, s1, r1)) = (c2, s2, r2) /\
    rotates (b i) (s * b (S i)) c2 s2 r2 /\ 0 <= r2).
  { destruct (Rlt_dec r1 0).
    - exists (- c1), (- s1), (- r1). split; auto. split; [|lra]. unfold rotates. repeat split; lra.
    - exists c1, s1, r1. split; auto. split; [|lra]. unfold rotates. repeat split; lra. }
  destruct Ex as (c2 & s2 & r2 & -> & (Q1 & Q2 & Q3) & Q4).
  set (b1 := put (put b (S i) (c * b (S i))) i r2).
  assert (E1 : eff m b i = b i) by (apply eff_in; lia).
  assert (E2 : eff m b (S i) = b (S i)) by (apply eff_in; lia).
  pose proof (rot_q_full m j i c2 s2 q Hb ltac:(lia)) as E.
  unfold turn.
  set (q' := rot_q (Nat.min (S i + S j) m) i c2 s2 q) in *.
  assert (B1 : b1 (S i) = c * b (S i)).
  { unfold b1. rewrite put_other, put_same by lia. reflexivity. }
  rewrite B1.
  set (dn := put (put d i (c2 * (c2 * d i + s2 * (c * b (S i))) + s2 * (c2 * (c * b (S i)) + s2 * d (S i)))) (S i)
               (c2 * (c2 * d (S i) - s2 * (c * b (S i))) - s2 * (c2 * (c * b (S i)) - s2 * d i))).
  set (bn := put b1 (S i) (c2 * (c2 * (c * b (S i)) - s2 * d i) + s2 * (c2 * d (S i) - s2 * (c * b (S i))))).
  assert (HB' : bulge m d0 b0 j (S i) c2 s2 (dn, bn, q')).
  { split; [|split; [|split]].
    - intros r Hrm.
      pose proof (turn_bulged m d (eff m b) i c s c2 s2 r2 (q r) (hq m d0 b0 q r) Hi ltac:(lia) Q1) as T.
      rewrite E1, E2 in T. specialize (T Q2 Q3 (Hr r Hrm)). cbv zeta in T.
      eapply bulged_ext; [| | | |exact T]; auto.
      + intros k. unfold bn, b1. symmetry. rewrite eff_put by lia.
        destruct (Nat.eq_dec k (S i)) as [->|N1]; [rewrite !put_same; reflexivity|].
        rewrite !(put_other _ _ (S i)) by auto. rewrite eff_put by lia.
        destruct (Nat.eq_dec k i) as [->|N2]; [rewrite !put_same; reflexivity|].
        rewrite !(put_other _ _ i) by auto. rewrite eff_put by lia. apply put_other; auto.
      + intros k. symmetry. apply E; auto.
      + intros k. symmetry. apply (hq_turned m d0 b0 i c2 s2 q q'); auto.
    - unfold unit_gram. eapply turned_gram; eauto. lia.
    - eapply turned_banded; eauto. lia.
    - intros k Hk N. unfold bn. rewrite put_other by auto. unfold b1.
      destruct (Nat.eq_dec k i) as [->|Nk]; [rewrite put_same; auto|].
      rewrite !put_other by auto. auto. }
  destruct (IHcnt j (S i) c2 s2 dn bn q' ltac:(lia) ltac:(lia) HB') as (c' & s' & d' & b' & q'' & Eq & HB2 & Hk).
  exists c', s', d', b', q''. split; auto. split.
  { replace (i + S cnt)%nat with (S i + cnt)%nat by lia. auto. }
  intros k Hk'. rewrite Hk by lia. unfold bn, b1. rewrite !put_other by lia. reflexivity.
Qed.

(* with no tolerance, only zeros are negligible *)
Lemma find_end_good : forall cnt i d b iend b',
  (i + cnt = m - 1)%nat -> (0 < m)%nat ->
  (forall c, (0 < c < m)%nat -> 0 <= b c) ->
  find_end 0 m cnt i d b = (iend, b') ->
  (i <= iend <= m - 1)%nat /\ (forall c, b' c = b c) /\ eff m b (S iend) = 0.
Proof.
  induction cnt; intros i d b iend b' Hi Hm Hp E; simpl in E.
  - injection E as <- <-. split; [lia|]. split; auto. apply eff_m. lia.
  - destruct (Rle_dec _ _) as [L|L].
    + injection E as <- <-. split; [lia|].
      assert (Z : b (S i) = 0) by (pose proof (Hp (S i) ltac:(lia)); lra).
      split.
      * intros c. unfold put. destruct (Nat.eqb_spec c (S i)); subst; auto.
      * rewrite eff_in by lia. auto.
    + apply IHcnt in E; auto; [|lia]. split; [lia|]. tauto.
Qed.

Lemma good_ext : forall j i d b q b', (forall c, b' c = b c) ->
  good m d0 b0 j i (d, b, q) -> good m d0 b0 j i (d, b', q).
Proof.
  intros j i d b q b' E (Hr & Hg & Hb & Hp). split; [|split; [|split]]; auto.
  - intros r Hrm. eapply plain_ext; [| | | |exact (Hr r Hrm)]; auto.
    apply eff_ext. intros; symmetry; auto.
  - intros c Hc. rewrite E. auto.
Qed.

Lemma banded_raise : forall j i i' q, (i <= i')%nat -> banded m j i q -> banded m j i' q.
Proof.
  intros j i i' q L H r c Hr Hc Hl. apply H; auto.
  destruct (Nat.ltb_spec c i'), (Nat.ltb_spec c i); lia.
Qed.

(* the sign at the end of a block *)
Lemma fix_sign_good : forall j i d b q,
  (i < m)%nat -> eff m b (S i) = 0 ->
  (forall r, (r < m)%nat -> plain m d (eff m b) (q r) (hq m d0 b0 q r)) ->
  unit_gram m q -> banded m j (S i) q ->
  (forall c, (0 < c < m)%nat -> c <> i -> 0 <= b c) ->
  exists d' b' q', fix_sign m i (d, b, q) = (d', b', q') /\
    good m d0 b0 j (S i) (d', b', q') /\ (forall k, k <> i -> b' k = b k) /\
    (0 <= b i -> b' i = b i).
Proof.
  intros j i d b q Hi H0 Hr Hg Hb Hp. unfold fix_sign.
  destruct (Rlt_dec (b i) 0) as [L|L].
  2:{ exists d, b, q. split; auto. split; [|auto]. split; [|split; [|split]]; auto.
      intros c Hc. destruct (Nat.eq_dec c i); [subst; lra|auto]. }
  set (q' := fun r : nat => if Nat.ltb r m then put (q r) i (- q r i) else q r).
  assert (E : forall r, (r < m)%nat -> q' r = put (q r) i (- q r i)).
  { intros r Hrm. unfold q'. destruct (Nat.ltb_spec r m); [reflexivity|lia]. }
  assert (Eh : forall r k, (r < m)%nat -> hq m d0 b0 q' r k = put (hq m d0 b0 q r) i (- hq m d0 b0 q r i) k).
  { intros r k Hrm. unfold hq. rewrite !E by lia.
    assert (E2 : eff m b0 (S r) * q' (S r) k = eff m b0 (S r) * put (q (S r)) i (- q (S r) i) k).
    { destruct (Nat.ltb_spec (S r) m); [rewrite E by lia; reflexivity|]. rewrite eff_m by lia. ring. }
    rewrite E2. unfold put. destruct (Nat.eqb k i); ring. }
  exists d, (put b i (- b i)), q'. split; auto.
  split; [|split; [intros; apply put_other; auto|intros; lra]].
  split; [|split; [|split]].
  - intros r Hrm.
    pose proof (flip_plain m d (eff m b) i _ _ (eff_0 m b) H0 (Hr r Hrm)) as T.
    eapply plain_ext; [| | | |exact T]; auto.
    + intros k. destruct (Nat.eq_dec i 0) as [->|N].
      * assert (forall k, eff m (put b 0 (- b 0%nat)) k = eff m b k).
        { apply eff_ext. intros c Hc. apply put_other. lia. }
        rewrite H. unfold put. destruct (Nat.eqb_spec k 0); auto. subst. rewrite eff_0. lra.
      * rewrite eff_put by lia. rewrite (eff_in m b i) by lia. reflexivity.
    + intros k. rewrite E by auto. reflexivity.
    + intros k. symmetry. apply Eh. auto.
  - intros a c Ha Hc.
    assert (G : gram m q' a c = (if Nat.eqb a i then -1 else 1) * (if Nat.eqb c i then -1 else 1) * gram m q a c).
    { unfold gram. rewrite <- sum_scal. apply sum_ext. intros r Hrm. rewrite !E by auto. unfold put.
      destruct (Nat.eqb_spec a i), (Nat.eqb_spec c i); subst; ring. }
    rewrite G, Hg by auto. destruct (Nat.eqb_spec a c) as [->|]; [destruct (Nat.eqb c i); lra|].
    destruct (Nat.eqb a i), (Nat.eqb c i); lra.
  - intros r c Hrm Hc Hl. rewrite E by auto. unfold put. destruct (Nat.eqb_spec c i).
    + subst. rewrite Hb; auto. lra.
    + apply Hb; auto.
  - intros c Hc. destruct (Nat.eq_dec c i); [subst; rewrite put_same; lra|].
    rewrite put_other by auto. auto.
Qed.

Lemma block_good : forall j sh i d b q,
  (i < m)%nat -> eff m b i = 0 -> good m d0 b0 j i (d, b, q) ->
  exists iend d' b' q', block lartg 0 m (S j) sh i (d, b, q) = (iend, (d', b', q')) /\
    (i <= iend < m)%nat /\ eff m b' (S iend) = 0 /\ good m d0 b0 j (S iend) (d', b', q') /\
    (forall k, (0 < k <= i)%nat -> b' k = b k).
Proof.
  intros j sh i d b q Hi H0 HG. unfold block.
  destruct (find_end 0 m (m - 1 - i) i d b) as [iend b1] eqn:F.
  destruct (find_end_good (m - 1 - i) i d b iend b1 ltac:(lia) ltac:(lia) ltac:(apply HG) F) as (L1 & L2 & L3).
  assert (HG1 : good m d0 b0 j i (d, b1, q)) by (apply (good_ext _ _ _ b); auto).
  assert (L3' : eff m b1 (S iend) = 0) by (rewrite (eff_ext m b1 b) by auto; auto).
  assert (H0' : eff m b1 i = 0) by (rewrite (eff_ext m b1 b) by auto; auto).
  assert (Mid : exists d2 b2 q2,
    (if Nat.ltb i iend then
       let '(c, s, _) := lartg (d i - sh) (b1 (S i)) in
       chase lartg m (S j) (iend - 1 - i) (S i) c s (turn m (S j) i c s (d, b1, q))
     else (d, b1, q)) = (d2, b2, q2) /\ b2 (S iend) = b1 (S iend) /\ (forall k, (k <= i)%nat -> b2 k = b1 k) /\
    (forall r, (r < m)%nat -> plain m d2 (eff m b2) (q2 r) (hq m d0 b0 q2 r)) /\
    unit_gram m q2 /\ banded m j iend q2 /\
    (forall c, (0 < c < m)%nat -> c <> iend -> 0 <= b2 c)).
  { destruct (Nat.ltb_spec i iend).
    - pose proof (Hrot (d i - sh) (b1 (S i))) as HR.
      destruct (lartg (d i - sh) (b1 (S i))) as [[c s] r]. destruct HR as (R1 & _).
      destruct (first_turn j i c s d b1 q ltac:(lia) R1 H0' HG1) as [HB Hk].
      destruct (turn m (S j) i c s (d, b1, q)) as [[d2 b2] q2].
      destruct (chase_good (iend - 1 - i) j (S i) c s d2 b2 q2 ltac:(lia) ltac:(lia) HB)
        as (c' & s' & d3 & b3 & q3 & E & (HB2 & HB3 & HB4 & HB5) & Hk3).
      replace (S i + (iend - 1 - i))%nat with iend in * by lia.
      exists d3, b3, q3. split; auto.
      assert (Eb : b3 (S iend) = b1 (S iend)) by (rewrite Hk3, Hk by lia; reflexivity).
      split; auto. split; [intros; rewrite Hk3, Hk by lia; reflexivity|]. split; auto.
      intros r0 Hr0. apply (bulged_plain m d3 (eff m b3) iend c' s'); auto.
      destruct (Nat.ltb_spec (S iend) m); [|apply eff_m; lia].
      rewrite eff_in in * by lia. rewrite Eb. auto.
    - assert (iend = i) by lia. subst iend. exists d, b1, q. split; auto. split; auto. split; auto.
      destruct HG1 as (A1 & A2 & A3 & A4). auto. }
  destruct Mid as (d2 & b2 & q2 & -> & Eb & Ek & Hr & Hg & Hb & Hp).
  assert (Z : eff m b2 (S iend) = 0).
  { destruct (Nat.ltb_spec (S iend) m); [|apply eff_m; lia].
    rewrite eff_in in * by lia. rewrite Eb. auto. }
  destruct (fix_sign_good j iend d2 b2 q2 ltac:(lia) Z Hr Hg) as (d3 & b3 & q3 & E & G3 & Hk3 & Hi3); auto.
  { eapply banded_raise; [|eauto]. lia. }
  exists iend, d3, b3, q3. rewrite E. split; auto. split; [lia|]. split; [|split; auto].
  - destruct (Nat.ltb_spec (S iend) m); [|apply eff_m; lia].
    rewrite eff_in in * by lia. rewrite Hk3 by lia. auto.
  - intros k Hk. rewrite <- L2, <- Ek by lia.
    destruct (Nat.eq_dec k iend); [|rewrite Hk3; auto].
    subst k. apply Hi3. rewrite Ek, L2 by lia. apply HG. lia.
Qed.

Lemma blocks_good : forall fuel j sh i d b q,
  (i < m)%nat -> (m <= fuel + i)%nat -> eff m b i = 0 -> good m d0 b0 j i (d, b, q) ->
  exists d' b' q', blocks lartg 0 m (S j) sh fuel i (d, b, q) = Some (d', b', q') /\
    good m d0 b0 j m (d', b', q') /\ (forall k, (0 < k <= i)%nat -> b' k = b k).
Proof.
  induction fuel; intros j sh i d b q Hi Hf H0 HG; [lia|]. cbn [blocks].
  destruct (block_good j sh i d b q Hi H0 HG) as (iend & d' & b' & q' & -> & L & Z & HG' & Hk).
  destruct (Nat.ltb_spec iend (m - 1)).
  - destruct (IHfuel j sh (S iend) d' b' q') as (d2 & b2 & q2 & E & G2 & Hk2); auto; try lia.
    exists d2, b2, q2. split; auto. split; auto. intros. rewrite Hk2, Hk by lia. reflexivity.
  - exists d', b', q'. split; auto. split; auto. replace m with (S iend) at 2 by lia. auto.
Qed.

Lemma raise_top_spec : forall cnt i b,
  (i + cnt < m)%nat -> (forall c, (0 < c < m)%nat -> 0 <= b c) -> eff m b i = 0 ->
  let i' := raise_top cnt i b in (i <= i' < m)%nat /\ eff m b i' = 0.
Proof.
  induction cnt; intros i b Hi Hp H0; simpl; [split; auto; lia|].
  destruct (Rlt_dec 0 (b (S i))); [split; auto; lia|].
  destruct (IHcnt (S i) b ltac:(lia) Hp) as [A B].
  - rewrite eff_in by lia. pose proof (Hp (S i) ltac:(lia)). lra.
  - split; auto. lia.
Qed.

Lemma good_next : forall j d b q i, good m d0 b0 j m (d, b, q) -> good m d0 b0 (S j) i (d, b, q).
Proof.
  intros j d b q i (A1 & A2 & A3 & A4). split; [|split; [|split]]; auto.
  intros r c Hr Hc L. apply A3; auto. destruct (Nat.ltb_spec c m), (Nat.ltb_spec c i); lia.
Qed.

Lemma good_raise : forall j i i' d b q, (i <= i')%nat ->
  good m d0 b0 j i (d, b, q) -> good m d0 b0 j i' (d, b, q).
Proof.
  intros j i i' d b q L (A1 & A2 & A3 & A4). split; [|split; [|split]]; auto.
  eapply banded_raise; eauto.
Qed.

Lemma sweeps_good : forall shifts j i d b q,
  (i < m)%nat -> eff m b i = 0 -> good m d0 b0 j 0 (d, b, q) ->
  exists i' d' b' q', sweeps lartg 0 m (S j) i shifts (d, b, q) = Some (i', (d', b', q')) /\
    (i' < m)%nat /\ good m d0 b0 (j + length shifts) 0 (d', b', q').
Proof.
  induction shifts as [|sh rest IH]; intros j i d b q Hi H0 HG.
  { exists i, d, b, q. simpl. rewrite Nat.add_0_r. auto. }
  cbn [sweeps].
  destruct (blocks_good m j sh i d b q Hi ltac:(lia) H0 (good_raise j 0 i d b q ltac:(lia) HG))
    as (d1 & b1 & q1 & -> & G1 & Hk).
  destruct (raise_top_spec (m - 1 - i) i b1) as [A B].
  - lia.
  - apply G1.
  - destruct (Nat.eq_dec i 0) as [->|]; [apply eff_0|].
    rewrite eff_in in * by lia. rewrite Hk by lia. auto.
  - destruct (IH (S j) (raise_top (m - 1 - i) i b1) d1 b1 q1) as (i' & d' & b' & q' & E & A' & B'); auto; try lia.
    + apply good_next; auto.
    + exists i', d', b', q'. split; auto. split; auto. simpl.
      replace (j + S (length rest))%nat with (S j + length rest)%nat by lia. auto.
Qed.

Lemma settle_same : forall cnt i d b, (i + cnt < m)%nat ->
  (forall c, (0 < c < m)%nat -> 0 <= b c) -> forall c, settle 0 cnt i d b c = b c.
Proof.
  induction cnt; intros i d b Hi Hp c; simpl; auto.
  destruct (Rle_dec _ _) as [L|L]; [|apply IHcnt; auto; lia].
  assert (Z : b (S i) = 0) by (pose proof (Hp (S i) ltac:(lia)); lra).
  assert (E : forall c, put b (S i) 0 c = b c).
  { intros k. unfold put. destruct (Nat.eqb_spec k (S i)); subst; auto. }
  rewrite IHcnt; auto; [lia|]. intros. rewrite E. auto.
Qed.
End Sweep.
