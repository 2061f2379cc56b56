From Coq Require Import Arith Lia Reals Lra List Bool.
Import ListNotations.
From Coquelicot Require Import Complex.
From Verif Require Import S_Arnoldi M_Arnoldi M_Napps L_Arnoldi L_Napps L_Napps2 L_Napps3.
Open Scope R_scope.
Open Scope C_scope.

Lemma closed_all : forall lartg, closed lartg (fun _ => True).
Proof. intros. split; auto. intros f g _ _. destruct (lartg f g) as [[c s] r]. auto. Qed.

Lemma closed_real : forall lartg, real_rotation lartg -> closed lartg real.
Proof.
  intros lartg H. unfold real_rotation, real in *. split; auto.
  - intros [a b] [c d]; simpl. intros -> ->. ring.
  - intros [a b] [c d]; simpl. intros -> ->. ring.
  - intros [a b]; simpl. intros ->. ring.
Qed.

Lemma real_size_0 : forall z, real z -> (real_size z <= 0)%R -> z = 0.
Proof.
  intros z Hz L. unfold real_size in L. apply Ceq; simpl; auto.
  destruct (Req_dec (Re z) 0) as [E|E]; auto. pose proof (Rabs_pos_lt _ E). lra.
Qed.

(* for a Hermitian matrix A, H is real *)
Lemma cdot_hermitian : forall n A x y, hermitian n A ->
  cdot n x (cmul n A y) = Cconj (cdot n y (cmul n A x)).
Proof.
  intros n A x y HA. rewrite <- cdot_conj. unfold cdot, cmul.
  rewrite (csum_ext n _ (fun i => csum n (fun j => Cconj (x i) * A i j * y j))).
  2:{ intros i Hi. rewrite <- csum_scal. apply csum_ext. intros. ring. }
  rewrite csum_swap. apply csum_ext. intros j Hj. rewrite csum_conj, <- csum_scal_r.
  apply csum_ext. intros i Hi. rewrite conj_mult, (HA i j) by auto. ring.
Qed.

Lemma arnoldi_entry : forall n A m v h f r c, arnoldi n A m v h f -> (r < m)%nat -> (c < m)%nat ->
  h r c = cdot n (v r) (cmul n A (v c)).
Proof.
  intros n A m v h f r c (Ho & Hf & Hr & _) Hr' Hc.
  rewrite (cdot_ext n (v r) (cmul n A (v c)) (v r)
    (fun i => ccombine m v (fun k => h k c) i + (if Nat.eqb (S c) m then RtoC 1 else RtoC 0) * f i)); auto.
  - rewrite cdot_plus, cdot_scal, Hf, cdot_combine by auto.
    rewrite (csum_one m r); auto.
    + rewrite Ho, Nat.eqb_refl by auto. ring.
    + intros k Hk N. rewrite Ho by auto. destruct (Nat.eqb_spec r k); [lia|ring].
  - intros i Hi. rewrite Hr by auto. destruct (Nat.eqb (S c) m); ring.
Qed.

Lemma arnoldi_real : forall n A m v h f, hermitian n A -> arnoldi n A m v h f -> all m real h.
Proof.
  intros n A m v h f HA HL.
  assert (Sy : forall r c, (r < m)%nat -> (c < m)%nat -> h r c = Cconj (h c r)).
  { intros r c Hr Hc. rewrite !(arnoldi_entry n A m v h f) by auto. apply cdot_hermitian. auto. }
  destruct HL as (_ & _ & _ & Hh & Hb).
  assert (L : forall r c, (r < m)%nat -> (c <= r)%nat -> real (h r c)).
  { intros r c Hr Hc. destruct (Nat.eq_dec r c) as [->|].
    - pose proof (Sy c c Hr Hr) as E. unfold real. apply (f_equal Im) in E.
      destruct (h c c) as [a b]. simpl in *. lra.
    - destruct (Nat.eq_dec r (S c)) as [->|].
      + apply Hb. auto.
      + rewrite Hh by lia. reflexivity. }
  intros r c Hr Hc. destruct (Nat.leb_spec c r); [apply L; auto|].
  rewrite Sy by auto. pose proof (L c r Hc ltac:(lia)) as E. unfold real in *.
  destruct (h c r) as [a b]. simpl in *. lra.
Qed.

Definition zfactored (n : nat) (A : nat -> nat -> C) (m : nat) (x : zverdict) : Prop :=
  match x with
  | Zfactored s => arnoldi n A m (av s) (ah s) (ares s) /\ anrm s = clen n (ares s)
  | Zsubspace k s =>
      (0 < k < m)%nat /\ arnoldi n A k (av s) (ah s) (ares s) /\
      forall i, (i < n)%nat -> ares s i = 0
  | Znostart | Zbroken => False
  end.

Section Rounds.
Context (lartg : C -> C -> R * C * C) (Hrot : crotation lartg).
Context (P : C -> Prop) (HP : closed lartg P) (size : C -> R).
Context (Hsize : forall z, P z -> (size z <= 0)%R -> z = 0).
Context (n : nat) (A : nat -> nat -> C) (m : nat).
Context (Hall : forall v h f, arnoldi n A m v h f -> all m P h).

Lemma zrounds_factored : forall hist rand s,
  (forall shifts, In shifts hist -> (length shifts < m)%nat) ->
  (forall shifts sh, In shifts hist -> In sh shifts -> P sh) ->
  hess m (ah s) ->
  arnoldi n A m (av s) (ah s) (ares s) -> anrm s = clen n (ares s) ->
  zfactored n A m (zrounds size 0 0 lartg n A rand m hist s).
Proof.
  induction hist as [|sh rest IH]; intros rand s Hh Ps HH HL Hn; cbn [zrounds].
  { split; auto. }
  assert (Hl : (length sh < m)%nat) by (apply Hh; left; reflexivity).
  assert (Em : (m - length sh + length sh)%nat = m) by lia.
  destruct (znapps_arnoldi lartg Hrot P HP size Hsize n A (m - length sh) sh s) as (s1 & -> & HL1 & Hn1 & HH1).
  { lia. } { intros x Hx. apply (Ps sh); auto. left. reflexivity. }
  { rewrite Em. eapply Hall; eauto. } { rewrite Em. auto. } { rewrite Em. auto. }
  rewrite Em in HH1.
  assert (Hk : (0 < m - length sh)%nat) by lia.
  destruct (znaitr_arnoldi (length sh) n A rand m (m - length sh) s1 (or_introl Hk) ltac:(lia) HH1 HL1 Hn1)
    as (info & s2 & -> & Hn2 & HH2 & _ & [[-> HL2]|(Hi & Hi2 & HL2 & HZ)]).
  - rewrite Em in HL2.
    apply IH; auto; intros; [apply Hh|eapply Ps]; try (right; eauto); auto.
  - destruct info; [lia|]. split; [lia|]. auto.
Qed.
End Rounds.

Lemma znaup2_factored : forall lartg (Hrot : crotation lartg) P size n A rand start nev0 np0 hist v,
  closed lartg P -> (forall z, P z -> (size z <= 0)%R -> z = 0) ->
  (forall v h f, arnoldi n A (nev0 + np0) v h f -> all (nev0 + np0) P h) ->
  (0 < nev0)%nat ->
  (forall shifts, In shifts hist -> (length shifts < nev0 + np0)%nat) ->
  (forall shifts sh, In shifts hist -> In sh shifts -> P sh) ->
  clen n (match start with Some r => r | None => rand 0%nat end) <> 0%R ->
  zfactored n A (nev0 + np0) (znaup2 size 0 0 lartg n A rand start nev0 np0 hist v).
Proof.
  intros lartg Hrot P size n A rand start nev0 np0 hist v HP Hsize Hall Hnev Hh Ps Hstart. unfold znaup2.
  assert (E : exists r drawn, match start with Some r => (r, 0%nat) | None => (rand 0%nat, 1%nat) end = (r, drawn)
     /\ clen n r <> 0%R).
  { destruct start; eauto. }
  destruct E as (r & drawn & -> & Hr).
  destruct (Req_EM_T (clen n r) 0); [contradiction|].
  destruct (znaitr_arnoldi nev0 n A rand (nev0 + np0) 0 (Ast v (fun _ _ => RtoC 0) r (clen n r) drawn))
    as (info & s1 & -> & Hn1 & HH1 & _ & C).
  - right. cbn. pose proof (clen_nonneg n r). lra.
  - lia.
  - intros a b _ _. reflexivity.
  - split; [intros a c Ha; lia|]. split; [intros; lia|]. split; [intros; lia|]. split; intros; lia.
  - reflexivity.
  - destruct C as [[-> HL1]|(Hi & Hi2 & HL1 & HZ)].
    + cbn [Nat.add] in HL1.
      destruct (znaitr_arnoldi np0 n A rand (nev0 + np0) nev0 s1 (or_introl Hnev) ltac:(lia) HH1 HL1 Hn1)
        as (info & s2 & -> & Hn2 & HH2 & _ & [[-> HL2]|(Hi & Hi2 & HL2 & HZ)]).
      * apply (zrounds_factored lartg Hrot P HP size Hsize); auto.
      * destruct info; [lia|]. split; [lia|]. auto.
    + destruct info; [lia|]. split; [lia|]. auto.
Qed.

(* ---- Ritz values ---- *)

Lemma clen_scal : forall n c x, clen n (fun i => c * x i) = (Cmod c * clen n x)%R.
Proof.
  intros. unfold clen. rewrite cdot_scal, cdot_scal_l.
  replace (c * (Cconj c * cdot n x x)) with ((Cconj c * c) * cdot n x x) by ring.
  rewrite conj_mod, cdot_self_im. rewrite <- RtoC_mult. cbn [Re RtoC fst].
  rewrite sqrt_mult; [|apply Rle_0_sqr|apply cdot_self_re].
  rewrite sqrt_square by apply Cmod_ge_0. reflexivity.
Qed.

Lemma critz_residual : forall n A m v h f y theta,
  (0 < m)%nat -> arnoldi n A m v h f ->
  (forall r, (r < m)%nat -> cmul m h y r = theta * y r) ->
  clen n (ccombine m v y) = clen m y /\
  clen n (fun i => cmul n A (ccombine m v y) i - theta * ccombine m v y i)
  = (clen n f * Cmod (y (m - 1)%nat))%R.
Proof.
  intros n A m v h f y theta Hm HL Hy. split.
  - unfold clen. f_equal. f_equal.
    destruct HL as (Ho & _). exact (cdot_columns n m v (fun r _ => y r) 0%nat 0%nat Ho).
  - rewrite (clen_ext n _ (fun i => y (m - 1)%nat * f i)).
    + rewrite clen_scal. ring.
    + intros i Hi.
      assert (M : cmul n A (ccombine m v y) i
          = csum m (fun r => v r i * csum m (fun k => h r k * y k)) + f i * y (m - 1)%nat)
        by exact (cmul_columns n A m v h f (fun r _ => y r) 0 i HL Hm Hi).
      rewrite M. unfold ccombine.
      rewrite (csum_ext m _ (fun r => theta * (v r i * y r))).
      * rewrite csum_scal. ring.
      * intros r Hr. specialize (Hy r Hr). unfold cmul in Hy. rewrite Hy. ring.
Qed.

Lemma cnear_eigenvalue : forall n A u l x theta rho,
  ceigenbasis n A u l -> clen n x = 1%R -> cresidual n A theta x = rho ->
  exists k, (k < n)%nat /\ (Cmod (l k - theta)%C <= rho)%R.
Proof.
  intros n A u l x theta rho (Ho & He & Hc) H1 Hr.
  set (c := fun k => cdot n (u k) x).
  assert (Hx : forall i, (i < n)%nat -> x i = ccombine n u c i) by (intros; apply Hc; auto).
  assert (P : csum n (fun k => Cconj (c k) * c k) = 1).
  { transitivity (cdot n x x).
    - rewrite (cdot_ext n x x (ccombine n u c) (ccombine n u c)) by auto.
      symmetry. exact (cdot_columns n n u (fun k _ => c k) 0%nat 0%nat Ho).
    - rewrite <- clen_sqr, H1. f_equal. ring. }
  assert (Q : csum n (fun k => Cconj ((l k - theta) * c k) * ((l k - theta) * c k)) = RtoC (rho * rho)).
  { rewrite <- Hr. unfold cresidual. rewrite clen_sqr.
    set (g := fun i => cmul n A x i - theta * x i).
    assert (Eg : forall i, (i < n)%nat -> g i = ccombine n u (fun k => (l k - theta) * c k) i).
    { intros i Hi. unfold g. rewrite (cmul_ext n A x (ccombine n u c)) by auto. rewrite Hx by auto.
      rewrite cmul_combine. unfold ccombine. rewrite <- csum_scal, <- csum_minus. apply csum_ext.
      intros k Hk. rewrite He by auto. ring. }
    rewrite (cdot_ext n g g (ccombine n u (fun k => (l k - theta) * c k)) (ccombine n u (fun k => (l k - theta) * c k))) by auto.
    symmetry. exact (cdot_columns n n u (fun k _ => (l k - theta) * c k) 0%nat 0%nat Ho). }
  assert (Hp : (0 <= rho)%R) by (rewrite <- Hr; apply clen_nonneg).
  assert (D : (exists k, (k < n)%nat /\ (Cmod (l k - theta)%C <= rho)%R)
              \/ forall k, (k < n)%nat -> (rho < Cmod (l k - theta)%C)%R).
  { clear. induction n; [right; intros; lia|]. destruct IHn as [(k & Hk & L)|R].
    - left. exists k. split; auto.
    - destruct (Rle_dec (Cmod (l n - theta)%C) rho).
      + left. exists n. split; auto.
      + right. intros k Hk. destruct (Nat.eq_dec k n); [subst; lra|apply R; lia]. }
  destruct D as [D|D]; auto. exfalso.
  set (w := fun k => RtoC ((Cmod (l k - theta)%C * Cmod (l k - theta)%C - rho * rho) * (Cmod (c k) * Cmod (c k)))%R).
  assert (Ew : forall k, w k = Cconj ((l k - theta) * c k) * ((l k - theta) * c k) - RtoC (rho * rho) * (Cconj (c k) * c k)).
  { intros k. unfold w. rewrite !conj_mod, Cmod_mult.
    rewrite <- RtoC_mult, <- RtoC_minus. f_equal. ring. }
  assert (Z : forall k, (k < n)%nat -> w k = 0).
  { intros k Hk. apply Ceq; [|reflexivity]. apply (csum_pos_0 n w); auto.
    - intros i Hi. unfold w. cbn [Re RtoC fst]. specialize (D i Hi).
      apply Rmult_le_pos; [nra|apply Rle_0_sqr].
    - rewrite (csum_ext n w (fun k => Cconj ((l k - theta) * c k) * ((l k - theta) * c k) - RtoC (rho * rho) * (Cconj (c k) * c k)))
        by (intros; apply Ew).
      rewrite csum_minus, Q, csum_scal, P. simpl. ring. }
  assert (N : csum n (fun k => Cconj (c k) * c k) = 0).
  { apply csum_0. intros k Hk. rewrite conj_mod. specialize (Z k Hk). unfold w in Z. apply RtoC_inj in Z.
    specialize (D k Hk). apply Rmult_integral in Z. destruct Z as [Z|Z]; [nra|rewrite Z; reflexivity]. }
  rewrite N in P. apply RtoC_inj in P. lra.
Qed.
