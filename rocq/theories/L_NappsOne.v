(* With one shift in a round the test on real parts is right: the elements it
   looks at have not been touched yet *)
From Coq Require Import Arith Lia Reals Lra List Bool.
Import ListNotations.
From Coquelicot Require Import Complex.
From Verif Require Import S_Arnoldi M_Arnoldi M_Napps L_Arnoldi L_Napps L_Napps2 L_Napps3 L_Naup2.
Open Scope R_scope.
Open Scope C_scope.

Lemma Cmod_le_0 : forall z : C, True -> (Cmod z <= 0)%R -> z = 0.
Proof. intros z _ L. apply Cmod_eq_0. pose proof (Cmod_ge_0 z). lra. Qed.

(* the elements below the diagonal from i on are real *)
Definition real_from (m i : nat) (h : nat -> nat -> C) : Prop :=
  forall k, (i <= k)%nat -> (S k < m)%nat -> real (h (S k) k).

Lemma find_end_same : forall cnt m jj i h, (i + cnt <= m - 1)%nat -> real_from m i h ->
  zfind_end real_size 0 0 m jj cnt i h = zfind_end Cmod 0 0 m jj cnt i h.
Proof.
  induction cnt; intros m jj i h Hc Hr; cbn [zfind_end]; [reflexivity|].
  rewrite small_apps_0. assert (R : real (h (S i) i)) by (apply Hr; lia).
  destruct (Rle_dec (real_size (h (S i) i)) 0) as [L|L], (Rle_dec (Cmod (h (S i) i)) 0) as [L'|L']; auto.
  - exfalso. apply L'. rewrite (real_size_0 _ R L), Cmod_0. lra.
  - exfalso. apply L. rewrite (Cmod_le_0 _ I L'). unfold real_size. simpl. rewrite Rabs_R0. lra.
  - apply IHcnt; [lia|]. intros k Hk. apply Hr. lia.
Qed.

Lemma find_end_far : forall cnt size m jj i h iend h', (i + cnt <= m - 1)%nat ->
  zfind_end size 0 0 m jj cnt i h = (iend, h') ->
  (i <= iend)%nat /\ forall r c, (iend < c)%nat -> h' r c = h r c.
Proof.
  induction cnt; intros size m jj i h iend h' Hc E; cbn [zfind_end] in E.
  { injection E as <- <-. split; auto. lia. }
  destruct (Rle_dec _ _).
  - injection E as <- <-. split; auto. intros r0 c Hlt. rewrite zput2_spec.
    destruct (Nat.eqb_spec c i); [lia|]. rewrite andb_false_r. reflexivity.
  - apply IHcnt in E; [|lia]. destruct E. split; [lia|auto].
Qed.

Lemma chase_far : forall lartg cnt m jj istart iend i f g x r c, (i + cnt <= iend)%nat ->
  (iend < r)%nat -> (iend < c)%nat ->
  fst (zchase lartg m jj istart iend cnt i f g x) r c = fst x r c.
Proof.
  induction cnt; intros m jj istart iend i f g [h q] r c Hi Hr Hc; cbn [zchase]; [reflexivity|].
  rewrite IHcnt by lia. unfold zturn. destruct (lartg f g) as [[c0 s0] r0]. cbn [fst].
  unfold zright, zleft.
  destruct (Nat.eqb_spec c i); [lia|]. destruct (Nat.eqb_spec c (S i)); [lia|].
  destruct (Nat.eqb_spec r i); [lia|]. destruct (Nat.eqb_spec r (S i)); [lia|].
  assert (E : (if Nat.ltb istart i then zput2 (zput2 h i (i - 1) r0) (S i) (i - 1) 0 else h) r c = h r c).
  { destruct (Nat.ltb istart i); auto. rewrite !zput2_spec.
    destruct (Nat.eqb_spec r (S i)); [lia|]. destruct (Nat.eqb_spec r i); [lia|]. reflexivity. }
  destruct (Nat.ltb r _), (Nat.leb i c && Nat.ltb c m)%bool; exact E.
Qed.

Lemma block_same : forall lartg m kev jj sh istart h q, (istart < m)%nat -> real_from m istart h ->
  zblock real_size 0 0 lartg m kev jj sh istart (h, q) = zblock Cmod 0 0 lartg m kev jj sh istart (h, q).
Proof.
  intros. unfold zblock. rewrite find_end_same by (auto; lia). reflexivity.
Qed.

Lemma block_far : forall lartg size m kev jj sh istart h q iend x, (istart < m)%nat ->
  zblock size 0 0 lartg m kev jj sh istart (h, q) = (iend, x) ->
  (istart <= iend)%nat /\
  forall r c, (iend < r)%nat -> (iend < c)%nat -> fst x r c = h r c.
Proof.
  intros lartg size m kev jj sh istart h q iend x Hi E. unfold zblock in E.
  destruct (zfind_end size 0 0 m jj (m - 1 - istart) istart h) as [ie h1] eqn:F.
  assert (Ei : ie = iend) by (destruct (Nat.eqb istart ie || Nat.leb kev istart)%bool; injection E; auto).
  subst ie. apply find_end_far in F; [|lia]. destruct F as [L F]. split; auto.
  intros r c Hr Hc. rewrite <- (F r c Hc).
  destruct (Nat.eqb istart iend || Nat.leb kev istart)%bool;
    apply (f_equal snd) in E; cbn [snd] in E; rewrite <- E; [reflexivity|].
  rewrite chase_far by lia. reflexivity.
Qed.

Lemma blocks_same : forall fuel lartg m kev jj sh istart x, (istart < m)%nat -> real_from m istart (fst x) ->
  zblocks real_size 0 0 lartg m kev jj sh fuel istart x = zblocks Cmod 0 0 lartg m kev jj sh fuel istart x.
Proof.
  induction fuel; intros lartg m kev jj sh istart [h q] Hi Hr; cbn [zblocks]; [reflexivity|].
  rewrite block_same by auto.
  destruct (zblock Cmod 0 0 lartg m kev jj sh istart (h, q)) as [iend x] eqn:E.
  destruct (Nat.ltb_spec iend (m - 1)); [|reflexivity].
  apply block_far in E; auto. destruct E as [L E]. apply IHfuel; [lia|].
  intros k Hk Hm. rewrite E by lia. apply Hr; auto. lia.
Qed.

Lemma znapps_same : forall lartg n kev shifts s, (0 < kev)%nat -> (length shifts <= 1)%nat ->
  real_from (kev + length shifts) 0 (ah s) ->
  znapps real_size 0 0 lartg n kev shifts s = znapps Cmod 0 0 lartg n kev shifts s.
Proof.
  intros lartg n kev shifts s Hk Hl Hr. unfold znapps.
  destruct shifts as [|sh [|sh' rest]]; [reflexivity| |simpl in Hl; lia].
  cbn [zsweeps]. rewrite blocks_same; [reflexivity|lia|]. exact Hr.
Qed.

Lemma zrounds_same : forall hist lartg n A rand m s, crotation lartg ->
  (forall shifts, In shifts hist -> (length shifts < m)%nat) ->
  (forall shifts, In shifts hist -> (length shifts <= 1)%nat) ->
  hess m (ah s) ->
  arnoldi n A m (av s) (ah s) (ares s) -> anrm s = clen n (ares s) ->
  zrounds real_size 0 0 lartg n A rand m hist s = zrounds Cmod 0 0 lartg n A rand m hist s.
Proof.
  induction hist as [|sh rest IH]; intros lartg n A rand m s Hrot Hh H1 HH HL Hn; cbn [zrounds]; [reflexivity|].
  assert (Hl : (length sh < m)%nat) by (apply Hh; left; reflexivity).
  assert (Em : (m - length sh + length sh)%nat = m) by lia.
  rewrite znapps_same.
  2:{ lia. } 2:{ apply H1. left. reflexivity. }
  2:{ rewrite Em. intros k _ Hk. destruct HL as (_ & _ & _ & _ & Hb). apply Hb. auto. }
  destruct (znapps_arnoldi lartg Hrot (fun _ => True) (closed_all lartg) Cmod Cmod_le_0 n A (m - length sh) sh s)
    as (s1 & E & HL1 & Hn1 & HH1).
  { lia. } { auto. } { intros r c _ _. exact I. } { rewrite Em. auto. } { rewrite Em. auto. }
  rewrite E. rewrite Em in HH1.
  assert (Hk : (0 < m - length sh)%nat) by lia.
  destruct (znaitr_arnoldi (length sh) n A rand m (m - length sh) s1 (or_introl Hk) ltac:(lia) HH1 HL1 Hn1)
    as (info & s2 & E2 & Hn2 & HH2 & _ & C2).
  rewrite E2. destruct info; [|reflexivity].
  destruct C2 as [[_ HL2]|(Hi & _)]; [|lia]. rewrite Em in HL2.
  apply IH; auto; intros; [apply Hh|apply H1]; right; auto.
Qed.

Lemma znaup2_same : forall lartg n A rand start nev0 np0 hist v, crotation lartg -> (0 < nev0)%nat ->
  (forall shifts, In shifts hist -> (length shifts < nev0 + np0)%nat) ->
  (forall shifts, In shifts hist -> (length shifts <= 1)%nat) ->
  znaup2 real_size 0 0 lartg n A rand start nev0 np0 hist v
  = znaup2 Cmod 0 0 lartg n A rand start nev0 np0 hist v.
Proof.
  intros lartg n A rand start nev0 np0 hist v Hrot Hnev Hh H1. unfold znaup2.
  destruct (match start with Some r => (r, 0%nat) | None => (rand 0%nat, 1%nat) end) as [r drawn].
  destruct (Req_EM_T (clen n r) 0); [reflexivity|].
  destruct (znaitr_arnoldi nev0 n A rand (nev0 + np0) 0 (Ast v (fun _ _ => RtoC 0) r (clen n r) drawn))
    as (info & s1 & -> & Hn1 & HH1 & _ & C).
  - right. cbn. pose proof (clen_nonneg n r). lra.
  - lia.
  - intros a b _ _. reflexivity.
  - split; [intros a c Ha; lia|]. split; [intros; lia|]. split; [intros; lia|]. split; intros; lia.
  - reflexivity.
  - destruct info; [|reflexivity]. destruct C as [[_ HL1]|(Hi & _)]; [|lia]. cbn [Nat.add] in HL1.
    destruct (znaitr_arnoldi np0 n A rand (nev0 + np0) nev0 s1 (or_introl Hnev) ltac:(lia) HH1 HL1 Hn1)
      as (info & s2 & -> & Hn2 & HH2 & _ & C).
    destruct info; [|reflexivity]. destruct C as [[_ HL2]|(Hi & _)]; [|lia].
    apply zrounds_same; auto.
Qed.
