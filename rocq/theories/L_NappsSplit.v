(* A run of znapps that drops an imaginary element, for C100_split_refuted *)
From Coq Require Import Arith Lia Reals Lra List Bool.
Import ListNotations.
From Coquelicot Require Import Complex.
From Verif Require Import S_Arnoldi M_Arnoldi M_Napps L_Arnoldi L_Napps L_Napps2 L_Napps3.
Open Scope R_scope.
Open Scope C_scope.

Definition split_matrix (i j : nat) : C :=
  match i, j with
  | 0%nat, 1%nat => (0, 5 / 2)%R
  | 1%nat, 0%nat => RtoC 4
  | 1%nat, 1%nat => RtoC (-3)
  | 2%nat, 2%nat => RtoC (-3)
  | _, _ => RtoC 0
  end.

Definition split_state : ast := Ast eye split_matrix (fun _ => RtoC 0) 0%R 0.

Ltac cx := apply Ceq; simpl; try lra; try field.

Lemma split_arnoldi : arnoldi 3 split_matrix 3 (av split_state) (ah split_state) (ares split_state).
Proof.
  cbn [av ah ares split_state]. split; [|split; [|split; [|split]]].
  - intros a b Ha Hb. unfold cdot, eye. cbn [csum].
    destruct a as [|[|[|]]], b as [|[|[|]]]; try lia; cbn [Nat.eqb]; cx.
  - intros a Ha. apply cdot_0. auto.
  - intros c i Hc Hi. unfold cmul, ccombine, eye. cbn [csum].
    destruct c as [|[|[|]]], i as [|[|[|]]]; try lia; cbn [Nat.eqb split_matrix]; cx.
  - intros r c Hr Hc. destruct r as [|[|[|]]], c as [|[|[|]]]; try lia; reflexivity.
  - intros c Hc. destruct c as [|[|]]; try lia; simpl; split; lra.
Qed.

Lemma split_shifts : forall sh, In sh [RtoC (-3); (1, 2)%R : C] -> exists y, critz 3 (ah split_state) sh y.
Proof.
  intros sh [<-|[<-|[]]]; cbn [ah split_state].
  - exists (fun i => if Nat.eqb i 2 then RtoC 1 else RtoC 0). split.
    + unfold clen, cdot. cbn [csum Nat.eqb]. rewrite !conj_R. simpl.
      replace (_ + _)%R with 1%R by ring. apply sqrt_1.
    + intros r Hr. unfold cmul. cbn [csum Nat.eqb]. destruct r as [|[|[|]]]; try lia; cbn [Nat.eqb split_matrix]; cx.
  - (* an eigenvector is (2 + i, 2, 0) / 3 *)
    exists (fun i => match i with 0%nat => (2 / 3, 1 / 3)%R : C | 1%nat => RtoC (2 / 3) | _ => RtoC 0 end). split.
    + unfold clen, cdot. cbn [csum]. simpl. replace (_ + _)%R with 1%R by field. apply sqrt_1.
    + intros r Hr. unfold cmul. cbn [csum]. destruct r as [|[|[|]]]; try lia; cbn [split_matrix]; cx.
Qed.

Lemma split_no_eigenvalue : forall x : cvec,
  (forall i, (i < 3)%nat -> cmul 3 split_matrix x i = (0, 6 / 5)%R * x i) ->
  forall i, (i < 3)%nat -> x i = 0.
Proof.
  intros x H.
  pose proof (H 0%nat ltac:(lia)) as H0. pose proof (H 1%nat ltac:(lia)) as H1. pose proof (H 2%nat ltac:(lia)) as H2.
  clear H. unfold cmul in *. cbn [csum split_matrix] in *.
  destruct (x 0%nat) as [a0 b0] eqn:X0. destruct (x 1%nat) as [a1 b1] eqn:X1. destruct (x 2%nat) as [a2 b2] eqn:X2.
  pose proof (f_equal Re H0) as R0. pose proof (f_equal Im H0) as I0.
  pose proof (f_equal Re H1) as R1. pose proof (f_equal Im H1) as I1.
  pose proof (f_equal Re H2) as R2. pose proof (f_equal Im H2) as I2. simpl in *.
  assert (a2 = 0%R /\ b2 = 0%R) as [-> ->] by (split; lra).
  assert (a0 = 0%R /\ b0 = 0%R /\ a1 = 0%R /\ b1 = 0%R) as (-> & -> & -> & ->) by (repeat split; lra).
  intros i Hi. destruct i as [|[|[|]]]; try lia; rewrite ?X0, ?X1, ?X2; reflexivity.
Qed.

Lemma small_apps_nonneg : forall ulp smlnum order h i, (0 <= smlnum)%R -> (0 <= small_apps ulp smlnum order h i)%R.
Proof. intros. unfold small_apps. eapply Rle_trans; [exact H|apply Rmax_r]. Qed.

Lemma find_end_hit : forall ulp smlnum m jj cnt i h, (0 <= smlnum)%R -> Re (h (S i) i) = 0%R ->
  zfind_end real_size ulp smlnum m jj (S cnt) i h = (i, zput2 h (S i) i 0).
Proof.
  intros. cbn [zfind_end]. destruct (Rle_dec _ _) as [_|N]; auto. exfalso. apply N.
  unfold real_size. rewrite H0, Rabs_R0. apply small_apps_nonneg. auto.
Qed.

Lemma split_run : forall lartg ulp smlnum, crotation lartg ->
  (0 <= ulp <= 1 / 100)%R -> (0 <= smlnum <= 1 / 100)%R ->
  exists s', znapps real_size ulp smlnum lartg 3 1 [RtoC (-3); (1, 2)%R : C] split_state = Some s' /\
    ah s' 0%nat 0%nat = (0, 6 / 5)%R /\ anrm s' = 0%R.
Proof.
  intros lartg ulp smlnum Hrot Hu Hs. unfold znapps. cbn [length Nat.add zsweeps ah av ares arnd split_state].
  (* first shift *)
  set (h1 := zput2 split_matrix 2 1 0).
  assert (F1 : zfind_end real_size ulp smlnum 3 1 (3 - 1 - 0) 0 split_matrix = (1%nat, h1)).
  { change (3 - 1 - 0)%nat with 2%nat. cbn [zfind_end].
    destruct (Rle_dec (real_size (split_matrix 1 0)) (small_apps ulp smlnum (3 - 1 + 1) split_matrix 0)) as [L|L].
    - exfalso. revert L. unfold real_size, small_apps. cbn [split_matrix]. simpl.
      rewrite Rabs_R0. rewrite (Rabs_left (-3)) by lra. rewrite (Rabs_right 4) by lra.
      destruct (Req_EM_T (0 + 0 + (- -3 + 0)) 0); [lra|].
      unfold Rmax. destruct (Rle_dec _ _); nra.
    - destruct (Rle_dec _ _) as [_|N]; [reflexivity|]. exfalso. apply N.
      unfold real_size. cbn [split_matrix]. simpl. rewrite Rabs_R0. apply small_apps_nonneg. lra. }
  pose proof (Hrot (h1 0%nat 0%nat - RtoC (-3)) (h1 1%nat 0%nat)) as HR.
  destruct (lartg (h1 0%nat 0%nat - RtoC (-3)) (h1 1%nat 0%nat)) as [[c s] r] eqn:EL.
  assert (Ef : h1 0%nat 0%nat - RtoC (-3) = RtoC 3) by (unfold h1; rewrite zput2_spec; cbn; cx).
  assert (Eg : h1 1%nat 0%nat = RtoC 4) by (unfold h1; rewrite zput2_spec; reflexivity).
  rewrite Ef, Eg in HR. destruct HR as (R1 & _ & R3).
  assert (Es : s = RtoC (4 / 3 * c)).
  { destruct s as [a b]. pose proof (f_equal Re R3). pose proof (f_equal Im R3). simpl in *.
    cx. }
  assert (Ec : (c * c = 9 / 25)%R).
  { subst s. pose proof (f_equal Re R1) as E. simpl in E. nra. }
  set (x2 := zturn lartg 3 1 0 1 0 (h1 0%nat 0%nat - RtoC (-3)) (h1 1%nat 0%nat) (h1, eye)).
  assert (B1 : zblocks real_size ulp smlnum lartg 3 1 1 (RtoC (-3)) 3 0 (split_matrix, eye) = Some x2).
  { cbn [zblocks zblock]. rewrite F1. cbn [Nat.eqb Nat.leb orb].
    change (1 - 0)%nat with 1%nat. cbn [zchase]. fold x2. change (Nat.ltb 1 (3 - 1)) with true. cbv iota.
    destruct x2 as [h2 q2]. unfold zblock. change (3 - 1 - 2)%nat with 0%nat. cbn [zfind_end Nat.sub Nat.eqb orb Nat.ltb Nat.leb].
    reflexivity. }
  change (fun r c : nat => if Nat.eqb r c then RtoC 1 else RtoC 0) with eye. rewrite B1.
  assert (X : exists h2 q2, x2 = (h2, q2) /\ h2 0%nat 0%nat = (0, 6 / 5)%R /\ Re (h2 1%nat 0%nat) = 0%R
     /\ h2 2%nat 1%nat = 0 /\ q2 2%nat 0%nat = 0).
  { unfold x2, zturn. rewrite EL. cbn [Nat.ltb Nat.leb]. do 2 eexists. split; [reflexivity|].
    unfold zright, zleft, h1. rewrite !zput2_spec. subst s.
    change (Nat.min (0 + 3) (1 + 1)) with 2%nat. change (Nat.min (0 + 1 + 1) 3) with 2%nat.
    cbn [Nat.eqb Nat.ltb Nat.leb andb split_matrix]; unfold eye; cbn [Nat.eqb].
    split; [|split; [|split]].
    - apply Ceq; simpl; nra.
    - simpl. nra.
    - reflexivity.
    - reflexivity. }
  destruct X as (h2 & q2 & -> & X00 & X10 & X21 & Q20).
  (* second shift *)
  assert (B2 : exists h3, zblocks real_size ulp smlnum lartg 3 1 2 (1, 2)%R 3 0 (h2, q2) = Some (h3, q2) /\
     h3 0%nat 0%nat = (0, 6 / 5)%R /\ h3 1%nat 0%nat = 0).
  { cbn [zblocks]. unfold zblock at 1. change (3 - 1 - 0)%nat with 2%nat.
    rewrite find_end_hit by (auto; lra). cbn [Nat.eqb orb]. change (Nat.ltb 0 (3 - 1)) with true. cbv iota.
    unfold zblock at 1. change (3 - 1 - 1)%nat with 1%nat.
    rewrite find_end_hit; [|lra|rewrite zput2_spec; cbn [Nat.eqb andb]; rewrite X21; reflexivity].
    cbn [Nat.eqb orb]. change (Nat.ltb 1 (3 - 1)) with true. cbv iota.
    unfold zblock at 1. change (3 - 1 - 2)%nat with 0%nat. cbn [zfind_end]. cbn [Nat.sub Nat.eqb orb Nat.ltb Nat.leb].
    eexists. split; [reflexivity|]. rewrite !zput2_spec. cbn [Nat.eqb andb]. auto. }
  destruct B2 as (h3 & -> & Y00 & Y10). cbn [znormal]. rewrite Y10.
  cbn [Re Im RtoC fst snd]. destruct (Rlt_dec 0 0); [lra|]. destruct (Req_EM_T 0 0); [|lra].
  cbn [zsettle]. set (h4 := if Rle_dec _ _ then zput2 h3 1 0 0 else h3).
  assert (Z00 : h4 0%nat 0%nat = (0, 6 / 5)%R).
  { unfold h4. destruct (Rle_dec _ _); auto. }
  assert (Z10 : h4 1%nat (1 - 1)%nat = 0).
  { unfold h4. destruct (Rle_dec _ _); auto. }
  rewrite Z10. cbn [Re RtoC fst]. destruct (Rlt_dec 0 0); [lra|].
  eexists. split; [reflexivity|]. cbn [ah anrm]. split; [exact Z00|].
  apply clen_zero. intros. ring.
Qed.
