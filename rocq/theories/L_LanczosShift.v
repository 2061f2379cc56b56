(* The iteration on the matrix that moves all components by one place: an
   unsymmetric matrix on which it goes wrong. *)
From Coq Require Import Arith Lia Reals Lra List Bool.
Import ListNotations.
From Verif Require Import S_Lanczos M_Lanczos M_Sapps L_Lanczos.
Open Scope R_scope.

Definition unit (a : nat) : vec := fun i => if Nat.eqb i a then 1 else 0.
(* ones above the diagonal *)
Definition shift : nat -> nat -> R := fun i j => if Nat.eqb j (S i) then 1 else 0.

Lemma dot_unit : forall n a x, (a < n)%nat -> dot n (unit a) x = x a.
Proof.
  intros. unfold dot. rewrite (sum_one n a); auto.
  - unfold unit. rewrite Nat.eqb_refl. ring.
  - intros i Hi Hn. unfold unit. destruct (Nat.eqb_spec i a); [congruence|ring].
Qed.
Lemma len_unit : forall n a, (a < n)%nat -> len n (unit a) = 1.
Proof. intros. unfold len. rewrite dot_unit by auto. unfold unit. rewrite Nat.eqb_refl. apply sqrt_1. Qed.

Lemma shift_mul : forall n x i, (i < n)%nat ->
  mul n shift x i = if Nat.ltb (S i) n then x (S i) else 0.
Proof.
  intros. unfold mul, shift. destruct (Nat.ltb_spec (S i) n).
  - rewrite (sum_one n (S i)); auto.
    + rewrite Nat.eqb_refl. ring.
    + intros j Hj Hn. destruct (Nat.eqb_spec j (S i)); [congruence|ring].
  - apply sum_0. intros j Hj. destruct (Nat.eqb_spec j (S i)); [lia|ring].
Qed.

(* after k steps *)
Definition stepped (n k : nat) (s : lst) : Prop :=
  (forall a i, (a < k)%nat -> (i < n)%nat -> lv s a i = unit (n - 1 - a) i) /\
  (forall a, (a < k)%nat -> ld s a = 0) /\
  (forall a, (0 < a < k)%nat -> lb s a = 1) /\
  (forall i, (i < n)%nat -> lres s i = if Nat.ltb k n then unit (n - 1 - k) i else 0) /\
  lnrm s = if Nat.ltb k n then 1 else 0.

Lemma stepped_grow : forall n k last s, (k < n)%nat -> stepped n k s ->
  stepped n (S k) (grow n shift k false last s).
Proof.
  intros n k last s Hk (Hv & Hd & Hb & Hr & Hn).
  assert (Ek : Nat.ltb k n = true) by (apply Nat.ltb_lt; lia). rewrite Ek in Hr, Hn.
  set (v := put (lv s) k (fun i => lres s i / lnrm s)).
  assert (Ev : forall a i, (a < S k)%nat -> (i < n)%nat -> v a i = unit (n - 1 - a) i).
  { intros a i Ha Hi. unfold v. destruct (Nat.eq_dec a k).
    - subst a. rewrite put_same, Hr, Hn by auto. field.
    - rewrite put_other by auto. apply Hv; lia. }
  assert (Ed : forall a x, (a < S k)%nat -> dot n (v a) x = x (n - 1 - a)%nat).
  { intros a x Ha. rewrite (dot_ext n (v a) x (unit (n - 1 - a)) x) by auto. apply dot_unit. lia. }
  assert (Ho : orthonormal n (S k) v).
  { intros a b Ha Hb'. rewrite Ed by auto. rewrite Ev by lia. unfold unit.
    destruct (Nat.eqb_spec a b), (Nat.eqb_spec (n - 1 - a) (n - 1 - b)); try lia; reflexivity. }
  destruct (grow_value n shift k false last s) as (r & E & Er); [rewrite Hn; lra|exact Ho|].
  fold v in E, Er. rewrite E. clear E.
  assert (Ew : forall i, (i < n)%nat ->
    mul n shift (v k) i = if Nat.ltb (S k) n then unit (n - 1 - S k) i else 0).
  { intros i Hi. rewrite shift_mul by auto. destruct (Nat.ltb_spec (S i) n).
    - rewrite Ev by lia. unfold unit.
      destruct (Nat.ltb_spec (S k) n), (Nat.eqb_spec (S i) (n - 1 - k)), (Nat.eqb_spec i (n - 1 - S k)); try lia; reflexivity.
    - unfold unit. destruct (Nat.ltb_spec (S k) n); auto.
      destruct (Nat.eqb_spec i (n - 1 - S k)); try lia; reflexivity. }
  assert (Ez : forall a, (a < S k)%nat -> dot n (v a) (mul n shift (v k)) = 0).
  { intros a Ha. rewrite Ed, Ew by lia. unfold unit. destruct (Nat.ltb_spec (S k) n); auto.
    destruct (Nat.eqb_spec (n - 1 - a) (n - 1 - S k)); [lia|reflexivity]. }
  assert (Err : forall i, (i < n)%nat -> r i = if Nat.ltb (S k) n then unit (n - 1 - S k) i else 0).
  { intros i Hi. rewrite Er, Ew by auto. rewrite (sum_0 (S k)).
    - destruct (Nat.ltb (S k) n); ring.
    - intros a Ha. rewrite Ez by auto. ring. }
  unfold stepped. cbn [lv ld lb lres lnrm]. split; [|split; [|split; [|split]]].
  - exact Ev.
  - intros a Ha. destruct (Nat.eq_dec a k).
    + subst a. rewrite put_same. apply Ez. lia.
    + rewrite put_other by auto. apply Hd. lia.
  - intros a Ha. destruct (Nat.eq_dec a k).
    + subst a. rewrite put_same. destruct (Nat.eqb_spec k 0); [lia|]. simpl. exact Hn.
    + rewrite put_other by auto. apply Hb. lia.
  - exact Err.
  - destruct (Nat.ltb_spec (S k) n).
    + rewrite (len_ext n r (unit (n - 1 - S k))) by auto. apply len_unit. lia.
    + apply len_zero. exact Err.
Qed.

Lemma stepped_saitr : forall n rand np k s, (k + np <= n)%nat -> stepped n k s ->
  exists s', saitr n shift rand np k s = Ended 0 s' /\ stepped n (k + np) s'.
Proof.
  induction np; intros k s H S0.
  - exists s. split; auto. rewrite Nat.add_0_r. auto.
  - cbn [saitr]. destruct (Rlt_dec 0 (lnrm s)) as [L|L].
    + destruct (IHnp (S k) (grow n shift k false (Nat.eqb np 0) s)) as (s' & E & S'); [lia| |].
      * apply stepped_grow; auto. lia.
      * exists s'. split; auto. replace (k + S np)%nat with (S k + np)%nat by lia. auto.
    + exfalso. destruct S0 as (_ & _ & _ & _ & Hn). rewrite Hn in L.
      destruct (Nat.ltb_spec k n); [lra|lia].
Qed.

Lemma stepped_saup2 : forall lartg eps n rand nev0 np0 v d b, (0 < n)%nat ->
  (nev0 + np0 = n)%nat ->
  exists s, saup2 lartg eps n shift rand (Some (unit (n - 1))) nev0 np0 [] v d b = Factored s /\
    stepped n n s.
Proof.
  intros lartg eps n rand nev0 np0 v d b Hn Hm. unfold saup2. rewrite len_unit by lia.
  destruct (Req_EM_T 1 0) as [Z|_]; [lra|].
  destruct (stepped_saitr n rand nev0 0 (Lst v d b (unit (n - 1)) 1 0)) as (s & E & S1).
  - lia.
  - unfold stepped. cbn [lv ld lb lres lnrm]. split; [intros; lia|]. split; [intros; lia|].
    split; [intros; lia|]. destruct (Nat.ltb_spec 0 n); [|lia]. split; auto.
    intros. rewrite Nat.sub_0_r. reflexivity.
  - rewrite E. destruct (stepped_saitr n rand np0 nev0 s) as (s' & E' & S2); [lia|auto|].
    rewrite E'. exists s'. split; auto. rewrite Hm in S2. exact S2.
Qed.
