From Coq Require Import Arith Lia Reals Lra List Bool.
Import ListNotations.
From Coquelicot Require Import Complex.
From Verif Require Import S_Arnoldi M_Arnoldi L_Arnoldi M_Napps L_Napps L_Napps2.
Open Scope R_scope.
Open Scope C_scope.

(* columns of V * Q *)
Lemma zback_spec : forall cnt m kev i q v0 v',
  (forall c x, (c < m - i)%nat -> v' c x = v0 c x) -> (i + cnt <= m)%nat ->
  (forall t x, (i <= t < i + cnt)%nat ->
     zback m kev cnt i q v' (m - S t)%nat x = ccombine (m - t) v0 (fun r => q r (kev - S t)%nat) x) /\
  (forall c x, (m - i <= c)%nat -> zback m kev cnt i q v' c x = v' c x).
Proof.
  induction cnt; intros m kev i q v0 v' H Hi; cbn [zback].
  { split; intros; [lia|reflexivity]. }
  set (v1 := zput v' (m - S i)%nat (ccombine (m - i) v' (fun r => q r (kev - S i)%nat))).
  destruct (IHcnt m kev (S i) q v0 v1) as [A B].
  - intros c x Hc. unfold v1. rewrite zput_other by lia. apply H. lia.
  - lia.
  - split.
    + intros t x Ht. destruct (Nat.eq_dec t i) as [->|].
      * rewrite B by lia. unfold v1. rewrite zput_same. unfold ccombine. apply csum_ext.
        intros a Ha. rewrite H by lia. reflexivity.
      * apply A. lia.
    + intros c x Hc. rewrite B by lia. unfold v1. rewrite zput_other by lia. reflexivity.
Qed.

Definition eye (r c : nat) : C := if Nat.eqb r c then RtoC 1 else RtoC 0.

Lemma eye_good : forall m P h, hess m h -> all m P h -> zgood m h P 0 0 (h, eye).
Proof.
  intros m P h Hh Ha. split; [|split; [|split; [|split]]]; auto.
  - intros r c Hr Hc. rewrite (csum_one m c), (csum_one m r); auto.
    + unfold eye. rewrite !Nat.eqb_refl. ring.
    + intros i Hi Ni. unfold eye. destruct (Nat.eqb_spec r i); [lia|ring].
    + intros i Hi Ni. unfold eye. destruct (Nat.eqb_spec i c); [lia|ring].
  - intros a b Ha' Hb. unfold cgram. destruct (Nat.eqb_spec a b) as [->|N].
    + rewrite (csum_one m b); auto.
      * unfold eye. rewrite Nat.eqb_refl, conj_R. ring.
      * intros i Hi Ni. unfold eye. destruct (Nat.eqb_spec i b); [lia|ring].
    + apply csum_0. intros i Hi. unfold eye.
      destruct (Nat.eqb_spec i a), (Nat.eqb_spec i b); try lia; rewrite ?conj_R; ring.
  - intros r c Hr Hc L. unfold eye. destruct (Nat.eqb_spec r c); auto. destruct (Nat.ltb_spec c 0); lia.
Qed.

(* the factorization in terms of the columns of Q *)
Lemma cmul_columns : forall n A m v h f (q : nat -> nat -> C) c i, arnoldi n A m v h f ->
  (0 < m)%nat -> (i < n)%nat ->
  cmul n A (ccombine m v (fun r => q r c)) i
  = csum m (fun r => v r i * csum m (fun k => h r k * q k c)) + f i * q (m - 1)%nat c.
Proof.
  intros n A m v h f q c i (Ho & Hf & Hr & _) Hm Hi. rewrite cmul_combine.
  rewrite (csum_ext m _ (fun k => csum m (fun r => v r i * (h r k * q k c))
                            + (if Nat.eqb (S k) m then f i else 0) * q k c)).
  2:{ intros k Hk. rewrite Hr by auto. unfold ccombine.
      rewrite (csum_ext m (fun r => v r i * (h r k * q k c)) (fun r => v r i * h r k * q k c)) by (intros; ring).
      rewrite csum_scal_r. ring. }
  rewrite csum_plus. f_equal.
  - rewrite csum_swap. apply csum_ext. intros r Hr'. apply csum_scal.
  - rewrite (csum_one m (m - 1)); [|lia|].
    + destruct (Nat.eqb_spec (S (m - 1)) m); [reflexivity|lia].
    + intros k Hk N. destruct (Nat.eqb_spec (S k) m); [lia|ring].
Qed.

Lemma cdot_columns : forall n m v q a b, corthonormal n m v ->
  cdot n (ccombine m v (fun r => q r a)) (ccombine m v (fun r => q r b)) = cgram m q a b.
Proof.
  intros n m v q a b Ho. rewrite cdot_combine. unfold cgram. apply csum_ext. intros r Hr. f_equal.
  rewrite cdot_conj, cdot_combine. f_equal.
  rewrite (csum_one m r); auto.
  - rewrite Ho, Nat.eqb_refl by auto. ring.
  - intros t Ht N. rewrite Ho by auto. destruct (Nat.eqb_spec r t); [lia|ring].
Qed.

Section Apps.
Context (lartg : C -> C -> R * C * C) (Hrot : crotation lartg).
Context (P : C -> Prop) (HP : closed lartg P) (size : C -> R).
Context (Hsize : forall z, P z -> (size z <= 0)%R -> z = 0).

(* znapps keeps the factorization *)
Lemma znapps_arnoldi : forall n A kev shifts s,
  (0 < kev)%nat -> (forall sh, In sh shifts -> P sh) ->
  all (kev + length shifts) P (ah s) -> hess (kev + length shifts) (ah s) ->
  arnoldi n A (kev + length shifts) (av s) (ah s) (ares s) ->
  exists s', znapps size 0 0 lartg n kev shifts s = Some s' /\
    arnoldi n A kev (av s') (ah s') (ares s') /\ anrm s' = clen n (ares s') /\
    hess (kev + length shifts) (ah s').
Proof.
  intros n A kev shifts s Hkev Ps Ha Hh HL. unfold znapps.
  destruct shifts as [|sh0 rest] eqn:Esh.
  { eexists. split; [reflexivity|]. simpl in *. rewrite Nat.add_0_r in *. auto. }
  rewrite <- Esh in *. assert (Hnp : (0 < length shifts)%nat) by (rewrite Esh; simpl; lia). clear sh0 rest Esh.
  set (np := length shifts) in *. set (m := (kev + np)%nat) in *.
  pose proof HL as (Ho & Hf & Hr & _ & _).
  destruct (zsweeps_good lartg Hrot m (ah s) P HP size Hsize shifts kev 0 (ah s) eye)
    as (h1 & q1 & E & HG).
  { unfold m. lia. } { auto. } { apply eye_good; auto. }
  change (fun r c : nat => if Nat.eqb r c then RtoC 1 else RtoC 0) with eye. rewrite E. clear E.
  fold np in HG. cbn [Nat.add] in HG.
  pose proof (znormal_good m (ah s) np kev 0 (h1, q1)) as HN.
  destruct (znormal m np kev 0 (h1, q1)) as [h q].
  destruct HN as (HS & Hg & Hband & Hhess & Hnice).
  { unfold m. lia. }
  { destruct HG as (B1 & B2 & B3 & B4 & _). split; [|split; [|split; [|split]]]; auto. intros c Hc. lia. }
  cbn [Nat.add] in Hnice.
  set (h' := zsettle 0 0 kev kev 0 h).
  assert (Eh : forall r c, h' r c = h r c).
  { apply (zsettle_same m); [unfold m; lia|]. intros c Hc. apply Hnice; unfold m; lia. }
  set (W := fun c => ccombine m (av s) (fun r => q r c)).
  set (vb := zback m kev kev 0 q (av s)).
  set (vc := fun c => if Nat.ltb c kev then vb (np + c)%nat else vb c).
  set (beta := h' kev (kev - 1)%nat).
  assert (Nb : Im (h kev (kev - 1)%nat) = 0%R /\ (0 <= Re (h kev (kev - 1)%nat))%R).
  { specialize (Hnice (kev - 1)%nat). replace (S (kev - 1)) with kev in Hnice by lia.
    apply Hnice; unfold m; lia. }
  set (v' := if Rlt_dec 0 (Re beta) then zput vc kev (ccombine m (av s) (fun r => q r kev)) else vc).
  assert (Hvc : forall c x, (c < kev)%nat -> vc c x = W c x).
  { intros c x Hc. unfold vc. destruct (Nat.ltb_spec c kev); [|lia].
    destruct (zback_spec kev m kev 0 q (av s) (av s)) as [A1 _]; [auto|unfold m; lia|].
    specialize (A1 (kev - 1 - c)%nat x ltac:(lia)).
    replace (m - S (kev - 1 - c))%nat with (np + c)%nat in A1 by (unfold m; lia).
    unfold vb. rewrite A1. replace (kev - S (kev - 1 - c))%nat with c by lia.
    unfold W, ccombine. symmetry. apply csum_trunc; [unfold m; lia|].
    intros r Hrr. rewrite (Hband r c); [ring|lia|unfold m; lia|]. simpl. lia. }
  assert (Hv' : forall c x, (c < kev)%nat -> v' c x = W c x).
  { intros c x Hc. unfold v'. destruct (Rlt_dec 0 (Re beta)); [|apply Hvc; auto].
    rewrite zput_other by lia. apply Hvc; auto. }
  set (sigma := q (m - 1)%nat (kev - 1)%nat).
  set (r0 := fun i => sigma * ares s i).
  set (r' := if Rlt_dec 0 (Re beta) then fun i => r0 i + beta * v' kev i else r0).
  assert (Hr' : forall i, r' i = sigma * ares s i + h kev (kev - 1)%nat * W kev i).
  { intros i. unfold r', v', r0. destruct (Rlt_dec 0 (Re beta)) as [L|L].
    - rewrite zput_same. unfold beta. rewrite Eh. reflexivity.
    - assert (Z : h kev (kev - 1)%nat = 0).
      { unfold beta in L. rewrite Eh in L. apply Ceq; simpl; [lra|apply Nb]. }
      rewrite Z. ring. }
  exists (Ast v' h' r' (clen n r') (arnd s)). split; [reflexivity|].
  cbn [av ah ares anrm].
  assert (HW : forall a c, (a < m)%nat -> (c < m)%nat -> cdot n (W a) (W c) = if Nat.eqb a c then 1 else 0).
  { intros a c Ha' Hc. unfold W. rewrite cdot_columns by auto. apply Hg; auto. }
  assert (HWf : forall a, (a < m)%nat -> cdot n (W a) (ares s) = 0).
  { intros a Ha'. rewrite cdot_conj. unfold W. rewrite cdot_combine.
    rewrite csum_0; [rewrite conj_R; reflexivity|].
    intros r Hrr. rewrite cdot_conj, Hf by auto. rewrite conj_R. ring. }
  assert (HA : forall c i, (c < m)%nat -> (i < n)%nat ->
    cmul n A (W c) i = csum m (fun k => W k i * h k c) + ares s i * q (m - 1)%nat c).
  { intros c i Hc Hin. unfold W at 1.
    rewrite (cmul_columns n A m (av s) (ah s) (ares s) q c i HL) by (auto; lia).
    f_equal. unfold W, ccombine.
    rewrite (csum_ext m (fun k => csum m _ * h k c) (fun k => csum m (fun r => av s r i * (q r k * h k c)))).
    2:{ intros k Hk. rewrite <- csum_scal_r. apply csum_ext. intros; ring. }
    rewrite csum_swap. apply csum_ext. intros r Hrr. rewrite csum_scal. rewrite (HS r c Hrr Hc). reflexivity. }
  split; [|split; [reflexivity|]].
  2:{ intros r c Hrr Hc. rewrite Eh. apply Hhess; auto. }
  split; [|split; [|split; [|split]]].
  - intros a c Ha' Hc. rewrite (cdot_ext n (v' a) (v' c) (W a) (W c)) by (intros; apply Hv'; auto).
    apply HW; unfold m; lia.
  - intros a Ha'.
    rewrite (cdot_ext n (v' a) r' (W a) (fun i => sigma * ares s i + h kev (kev - 1)%nat * W kev i))
      by (intros; auto).
    rewrite cdot_plus, !cdot_scal, HWf, HW by (unfold m; lia).
    destruct (Nat.eqb_spec a kev); [lia|ring].
  - intros c i Hc Hin. rewrite (cmul_ext n A (v' c) (W c)) by (intros; apply Hv'; auto).
    rewrite HA by (auto; unfold m; lia).
    assert (E1 : ccombine kev v' (fun r => h' r c) i = csum kev (fun k => W k i * h k c)).
    { unfold ccombine. apply csum_ext. intros k Hk. rewrite Hv', Eh by auto. reflexivity. }
    rewrite E1. destruct (Nat.eqb_spec (S c) kev) as [Ec|Nc].
    + rewrite Hr'. rewrite (csum_trunc m (S kev)); [|unfold m; lia|].
      2:{ intros k Hk. rewrite (Hhess k c) by lia. ring. }
      cbn [csum]. unfold sigma. replace (kev - 1)%nat with c by lia. ring.
    + rewrite (csum_trunc m kev); [|unfold m; lia|].
      2:{ intros k Hk. rewrite (Hhess k c) by lia. ring. }
      rewrite (Hband (m - 1)%nat c); [ring|unfold m; lia|unfold m; lia|]. simpl. unfold m. lia.
  - intros r c Hrr Hc. rewrite Eh. apply Hhess; auto. unfold m. lia.
  - intros c Hc. rewrite Eh. apply Hnice; unfold m; lia.
Qed.

End Apps.
