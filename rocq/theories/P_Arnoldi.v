(* C100: the Arnoldi iteration of the bundled ARPACK on complex numbers *)
From Coq Require Import Arith Lia Reals Lra List Bool.
Import ListNotations.
From Coquelicot Require Import Complex.
From Verif Require Import S_Arnoldi M_Arnoldi M_Napps L_Arnoldi L_Napps L_Napps2 L_Napps3 L_Napps4 L_Naup2 L_NappsOne L_NappsSplit L_SpectralC.
Open Scope R_scope.
Open Scope C_scope.

(* When the iteration works: the matrix is Hermitian and the shifts are real;
   or no round has more than one shift; or, for other matrices, no element is
   dropped only because its real part is zero: measuring elements by their
   modulus gives the same run. *)
Definition suited (lartg : C -> C -> R * C * C) (n : nat) (A : nat -> nat -> C) (rand : nat -> cvec)
    (start : option cvec) (nev0 np0 : nat) (hist : list (list C)) (v : nat -> cvec) : Prop :=
  (hermitian n A /\ real_rotation lartg /\
   forall shifts s, In shifts hist -> In s shifts -> real s)
  \/ (forall shifts, In shifts hist -> (length shifts <= 1)%nat)
  \/ znaup2 real_size 0 0 lartg n A rand start nev0 np0 hist v
     = znaup2 Cmod 0 0 lartg n A rand start nev0 np0 hist v.

(* For each matrix, each starting vector that is not zero, all random vectors,
   all numbers of shifts in each round and all shifts, after any number of
   rounds there is an Arnoldi factorization of the full length with the norm of
   its remainder, or the routine has found a subspace that the matrix maps into
   itself and says how large it is. It always ends and never divides by zero.
   Only a zero starting vector is refused.

   Partial: complex numbers instead of pairs of doubles, so that the
   thresholds ulp and smlnum are 0; and the run must be suited. *)
Theorem C100_factorization_partial :
  forall lartg n A rand start nev0 np0 hist v,
    crotation lartg -> (0 < nev0)%nat ->
    (forall shifts, In shifts hist -> (length shifts < nev0 + np0)%nat) ->
    suited lartg n A rand start nev0 np0 hist v ->
    let first := match start with Some r => r | None => rand 0%nat end in
    match znaup2 real_size 0 0 lartg n A rand start nev0 np0 hist v with
    | Zfactored s =>
        arnoldi n A (nev0 + np0) (av s) (ah s) (ares s) /\ anrm s = clen n (ares s)
    | Zsubspace k s => (0 < k < nev0 + np0)%nat /\ cinvariant n A k (av s)
    | Znostart => forall i, (i < n)%nat -> first i = 0
    | Zbroken => False
    end.
Proof.
  intros lartg n A rand start nev0 np0 hist v Hrot Hnev Hh Hsuit first.
  destruct (Req_EM_T (clen n first) 0) as [Z|NZ].
  - assert (E : znaup2 real_size 0 0 lartg n A rand start nev0 np0 hist v = Znostart).
    { unfold znaup2, first in *. destruct start as [r|].
      - destruct (Req_EM_T (clen n r) 0); [reflexivity|contradiction].
      - destruct (Req_EM_T (clen n (rand 0%nat)) 0); [reflexivity|contradiction]. }
    rewrite E. apply clen_0; auto.
  - assert (F : zfactored n A (nev0 + np0) (znaup2 real_size 0 0 lartg n A rand start nev0 np0 hist v)).
    { assert (Hsuit' : (hermitian n A /\ real_rotation lartg /\
        forall shifts s, In shifts hist -> In s shifts -> real s) \/
        znaup2 real_size 0 0 lartg n A rand start nev0 np0 hist v
        = znaup2 Cmod 0 0 lartg n A rand start nev0 np0 hist v).
      { destruct Hsuit as [H|[H|H]]; auto. right. apply znaup2_same; auto. }
      destruct Hsuit' as [(HA & Hreal & Hs)|Es].
      - apply (znaup2_factored lartg Hrot real); auto.
        + apply closed_real. auto.
        + apply real_size_0.
        + intros v0 h f HL. apply (arnoldi_real n A _ v0 h f); auto.
      - rewrite Es. apply (znaup2_factored lartg Hrot (fun _ => True)); auto.
        + apply closed_all.
        + intros z _ L. apply Cmod_eq_0. pose proof (Cmod_ge_0 z). lra.
        + intros. intros r c _ _. exact I. }
    destruct (znaup2 real_size 0 0 lartg n A rand start nev0 np0 hist v) as [|k s|s|]; auto.
    + contradiction.
    + destruct F as (Hk & HL & HZ). split; auto. split; [apply HL|].
      intros y. exists (fun r => csum k (fun c => ah s r c * y c)). intros i Hi.
      pose proof (cmul_columns n A k (av s) (ah s) (ares s) (fun r _ => y r) 0 i HL ltac:(lia) Hi) as M.
      rewrite (HZ i Hi) in M. rewrite Cmult_0_l, Cplus_0_r in M. exact M.
Qed.
Print Assumptions C100_factorization_partial.

(* An implicit restart with the shifts s_1, ..., s_p begins a new factorization
   with the direction of (A - s_p) ... (A - s_1) v, v being the first vector
   before. Here elements are measured by their modulus. *)
Theorem C100_restart_partial :
  forall lartg n A kev shifts s,
    crotation lartg -> (0 < kev)%nat ->
    arnoldi n A (kev + length shifts) (av s) (ah s) (ares s) ->
    exists s' rho,
      znapps Cmod 0 0 lartg n kev shifts s = Some s' /\
      arnoldi n A kev (av s') (ah s') (ares s') /\
      anrm s' = clen n (ares s') /\
      (forall i, (i < n)%nat -> cfilter n A shifts (av s 0%nat) i = rho * av s' 0%nat i) /\
      Cmod rho = clen n (cfilter n A shifts (av s 0%nat)).
Proof.
  intros lartg n A kev shifts s Hrot Hk HL.
  assert (Hz : forall z : C, True -> (Cmod z <= 0)%R -> z = 0).
  { intros z _ L. apply Cmod_eq_0. pose proof (Cmod_ge_0 z). lra. }
  assert (HH : hess (kev + length shifts) (ah s)).
  { destruct HL as (_ & _ & _ & Hh & _). exact Hh. }
  destruct (znapps_arnoldi lartg Hrot (fun _ => True) (closed_all lartg) Cmod Hz n A kev shifts s)
    as (s' & E & HL' & Hn & _); auto.
  { intros r c _ _. exact I. }
  destruct (znapps_filter lartg (fun _ => True) Cmod n A kev shifts s s') as (rho & Hr); auto.
  { apply closed_all. } { intros r c _ _. exact I. }
  exists s', rho. repeat (split; [assumption|]).
  rewrite (clen_ext n _ (fun i => rho * av s' 0%nat i)) by auto.
  rewrite clen_scal. destruct HL' as (Ho & _).
  unfold clen. rewrite Ho by lia. simpl. rewrite sqrt_1. ring.
Qed.
Print Assumptions C100_restart_partial.

(* So the error estimate of a Ritz value is the exact residual of its vector. *)
Theorem C100_estimate_partial :
  forall lartg n A rand start nev0 np0 hist v s theta y,
    crotation lartg -> (0 < nev0)%nat ->
    (forall shifts, In shifts hist -> (length shifts < nev0 + np0)%nat) ->
    suited lartg n A rand start nev0 np0 hist v ->
    znaup2 real_size 0 0 lartg n A rand start nev0 np0 hist v = Zfactored s ->
    critz (nev0 + np0) (ah s) theta y ->
    clen n (ccombine (nev0 + np0) (av s) y) = 1%R /\
    cresidual n A theta (ccombine (nev0 + np0) (av s) y) = zestimate (nev0 + np0) (anrm s) y.
Proof.
  intros lartg n A rand start nev0 np0 hist v s theta y Hrot Hnev Hh Hs E [Hy1 Hy].
  pose proof (C100_factorization_partial lartg n A rand start nev0 np0 hist v Hrot Hnev Hh Hs) as F.
  cbv zeta in F. rewrite E in F. destruct F as [HL Hn].
  destruct (critz_residual n A (nev0 + np0) _ _ _ y theta ltac:(lia) HL Hy) as [A1 A2].
  split; [rewrite A1; auto|]. unfold cresidual, zestimate. rewrite A2, Hn. reflexivity.
Qed.
Print Assumptions C100_estimate_partial.

(* A matrix with an orthonormal basis of eigenvectors, as Hermitian ones, has
   an eigenvalue within the error estimate. So a Ritz value that passes the
   convergence test of ARPACK (znaup2.f.c:608-618, modelled in M_ArpackSelect
   for real matrices) is that close to an eigenvalue. *)
Theorem C100_eigenvalue_partial :
  forall lartg n A rand start nev0 np0 hist v s theta y u l tol eps23,
    crotation lartg -> (0 < nev0)%nat ->
    (forall shifts, In shifts hist -> (length shifts < nev0 + np0)%nat) ->
    suited lartg n A rand start nev0 np0 hist v ->
    znaup2 real_size 0 0 lartg n A rand start nev0 np0 hist v = Zfactored s ->
    critz (nev0 + np0) (ah s) theta y ->
    ceigenbasis n A u l ->
    (zestimate (nev0 + np0) (anrm s) y <= tol * Rmax eps23 (Cmod theta))%R ->
    exists k, (k < n)%nat /\ (Cmod (l k - theta)%C <= tol * Rmax eps23 (Cmod theta))%R.
Proof.
  intros lartg n A rand start nev0 np0 hist v s theta y u l tol eps23 Hrot Hnev Hh Hs E Hy Hu Ht.
  destruct (C100_estimate_partial lartg n A rand start nev0 np0 hist v s theta y Hrot Hnev Hh Hs E Hy) as [A1 A2].
  destruct (cnear_eigenvalue n A u l _ theta _ Hu A1 A2) as (k & Hk & L). exists k. split; auto. lra.
Qed.
Print Assumptions C100_eigenvalue_partial.

(* Hermitian matrices have such a basis, by the spectral theorem, and real
   eigenvalues. So for them there is always an eigenvalue within the estimate. *)
Theorem C100_hermitian_partial :
  forall lartg n A rand start nev0 np0 hist v s theta y tol eps23,
    crotation lartg -> (0 < nev0)%nat -> hermitian n A ->
    (forall shifts, In shifts hist -> (length shifts < nev0 + np0)%nat) ->
    suited lartg n A rand start nev0 np0 hist v ->
    znaup2 real_size 0 0 lartg n A rand start nev0 np0 hist v = Zfactored s ->
    critz (nev0 + np0) (ah s) theta y ->
    (zestimate (nev0 + np0) (anrm s) y <= tol * Rmax eps23 (Cmod theta))%R ->
    exists (lam : R) (x : cvec), clen n x = 1%R /\ (forall i, (i < n)%nat -> cmul n A x i = RtoC lam * x i) /\
      (Cmod (RtoC lam - theta)%C <= tol * Rmax eps23 (Cmod theta))%R.
Proof.
  intros lartg n A rand start nev0 np0 hist v s theta y tol eps23 Hrot Hnev HA Hh Hs E Hy Ht.
  destruct (cspectral n A HA) as (u & l & Hu & Hl).
  destruct (C100_eigenvalue_partial lartg n A rand start nev0 np0 hist v s theta y u l tol eps23 Hrot Hnev Hh Hs E Hy Hu Ht) as (k & Hk & L).
  assert (El : l k = RtoC (Re (l k))) by (apply Ceq; [reflexivity|rewrite Hl; reflexivity]).
  exists (Re (l k)), (u k). rewrite <- El. split; [|split; [|exact L]].
  - unfold clen. destruct Hu as (Ho & _). rewrite Ho, Nat.eqb_refl by auto. apply sqrt_1.
  - intros i Hi. apply Hu; auto.
Qed.
Print Assumptions C100_hermitian_partial.

(* Refuted for general complex matrices and several shifts in a round: after
   the first shift the elements below the diagonal need not be real, and the
   search for blocks looks only at their real parts (znapps.f.c:402). Here is a
   factorization of length 3 of a 3 x 3 matrix, and two of its eigenvalues are
   the shifts. After the first one an element is -8/5 i, and the second one
   drops it. What is left looks like an exact eigenpair with the eigenvalue
   6/5 i and the error estimate 0, but 6/5 i is not an eigenvalue: only the
   zero vector is mapped to 6/5 i times itself. The thresholds may be any small
   numbers, and the rotation may be any. *)
Theorem C100_split_refuted :
  exists A s shifts theta,
    arnoldi 3 A 3 (av s) (ah s) (ares s) /\
    (forall sh, In sh shifts -> exists y, critz 3 (ah s) sh y) /\
    forall lartg ulp smlnum,
      crotation lartg -> (0 <= ulp <= 1 / 100)%R -> (0 <= smlnum <= 1 / 100)%R ->
      exists s',
        znapps real_size ulp smlnum lartg 3 1 shifts s = Some s' /\
        critz 1 (ah s') theta (fun _ => RtoC 1) /\
        zestimate 1 (anrm s') (fun _ => RtoC 1) = 0%R /\
        (forall x : cvec, (forall i, (i < 3)%nat -> cmul 3 A x i = theta * x i) ->
           forall i, (i < 3)%nat -> x i = 0).
Proof.
  exists split_matrix, split_state, [RtoC (-3); (1, 2)%R : C], ((0, 6 / 5)%R : C).
  split; [apply split_arnoldi|]. split; [apply split_shifts|].
  intros lartg ulp smlnum Hrot Hu Hs.
  destruct (split_run lartg ulp smlnum Hrot Hu Hs) as (s' & E & E1 & E2).
  exists s'. split; [exact E|]. split; [|split].
  - split.
    + unfold clen, cdot. cbn [csum]. rewrite conj_R. simpl. replace (_ + _)%R with 1%R by ring. apply sqrt_1.
    + intros r Hr. assert (r = 0%nat) by lia. subst r. unfold cmul. cbn [csum]. rewrite E1. ring.
  - unfold zestimate. rewrite E2. ring.
  - apply split_no_eigenvalue.
Qed.
Print Assumptions C100_split_refuted.

(* ---- the hypotheses are met ---- *)

(* a rotation for all f and g, real for real ones *)
Definition lartg_complex (f g : C) : R * C * C :=
  if Req_EM_T (Cmod f) 0 then
    if Req_EM_T (Cmod g) 0 then (1%R, RtoC 0, RtoC 0)
    else (0%R, Cconj g / RtoC (Cmod g), RtoC (Cmod g))
  else
    let d := sqrt (Cmod f * Cmod f + Cmod g * Cmod g) in
    ((Cmod f / d)%R, f / RtoC (Cmod f) * (Cconj g / RtoC d), f / RtoC (Cmod f) * RtoC d).

Lemma conj_div : forall z (x : R), x <> 0%R -> Cconj (z / RtoC x) = Cconj z / RtoC x.
Proof.
  intros z x Hx. unfold Cdiv. rewrite conj_mult, <- RtoC_inv by auto. rewrite conj_R. reflexivity.
Qed.

Example lartg_complex_rotates : crotation lartg_complex.
Proof.
  intros f g. unfold lartg_complex.
  destruct (Req_EM_T (Cmod f) 0) as [F|F]; [destruct (Req_EM_T (Cmod g) 0) as [G|G]|].
  - apply Cmod_eq_0 in F, G. subst. rewrite conj_R. repeat split; cx.
  - apply Cmod_eq_0 in F. subst f. rewrite conj_div, conj_conj by auto.
    pose proof (RtoC_neq _ G) as G'. pose proof (conj_mod g) as N. rewrite RtoC_mult in N.
    repeat split; try ring.
    + replace (RtoC 0 * RtoC 0 + g / RtoC (Cmod g) * (Cconj g / RtoC (Cmod g)))
        with ((Cconj g * g) / (RtoC (Cmod g) * RtoC (Cmod g))) by (field; auto).
      rewrite N. field. auto.
    + replace (RtoC 0 * RtoC 0 + Cconj g / RtoC (Cmod g) * g) with ((Cconj g * g) / RtoC (Cmod g)) by (field; auto).
      rewrite N. field. auto.
  - set (a := Cmod f) in *. set (b := Cmod g) in *. set (d := sqrt (a * a + b * b)).
    assert (P : (0 < a * a + b * b)%R) by (assert (0 < a * a)%R by nra; nra).
    assert (D : d <> 0%R) by (pose proof (sqrt_lt_R0 _ P); unfold d; lra).
    assert (Q : (d * d = a * a + b * b)%R) by (apply sqrt_sqrt; lra).
    pose proof (RtoC_neq _ F) as F'. pose proof (RtoC_neq _ D) as D'.
    pose proof (conj_mod f) as N. fold a in N. rewrite RtoC_mult in N.
    pose proof (conj_mod g) as M. fold b in M. rewrite RtoC_mult in M.
    assert (Q' : RtoC d * RtoC d = RtoC a * RtoC a + RtoC b * RtoC b) by (rewrite <- !RtoC_mult, <- RtoC_plus, Q; reflexivity).
    cbv zeta. rewrite conj_mult, !conj_div, conj_conj, RtoC_div by auto. repeat split.
    + replace (RtoC a / RtoC d * (RtoC a / RtoC d)
        + Cconj f / RtoC a * (g / RtoC d) * (f / RtoC a * (Cconj g / RtoC d)))
        with ((RtoC a * RtoC a + (Cconj f * f) * (Cconj g * g) / (RtoC a * RtoC a)) / (RtoC d * RtoC d)) by (field; auto).
      rewrite N, M, Q'. field. split; auto. rewrite <- Q'. intros Z. apply D'.
      destruct (Ceq_dec (RtoC d) 0) as [|Nz]; auto. exfalso. exact (Cmult_neq_0 _ _ D' D' Z).
    + replace (RtoC a / RtoC d * f + f / RtoC a * (Cconj g / RtoC d) * g)
        with (f / RtoC a * ((RtoC a * RtoC a + Cconj g * g) / RtoC d)) by (field; auto).
      rewrite M, <- Q'. field. auto.
    + replace (- (Cconj f / RtoC a * (g / RtoC d)) * f + RtoC a / RtoC d * g)
        with ((RtoC a - (Cconj f * f) / RtoC a) * g / RtoC d) by (field; auto).
      rewrite N. field. auto.
Qed.

Example lartg_complex_real : real_rotation lartg_complex.
Proof.
  assert (D : forall z (x : R), x <> 0%R -> real z -> real (z / RtoC x)).
  { intros [a b] x Hx Hz. unfold real in *. simpl in *. subst b. field. nra. }
  assert (M : forall z w, real z -> real w -> real (z * w)).
  { intros [a b] [c d]. unfold real. simpl. intros -> ->. ring. }
  assert (K : forall z, real z -> real (Cconj z)).
  { intros [a b]. unfold real. simpl. intros ->. ring. }
  intros f g Hf Hg. unfold lartg_complex.
  destruct (Req_EM_T (Cmod f) 0) as [F|F]; [destruct (Req_EM_T (Cmod g) 0) as [G|G]|].
  - split; reflexivity.
  - split; [apply D; auto|reflexivity].
  - assert (P : (0 < Cmod f * Cmod f + Cmod g * Cmod g)%R) by (assert (0 < Cmod f * Cmod f)%R by nra; nra).
    pose proof (sqrt_lt_R0 _ P). cbv zeta. split.
    + apply M; [apply D; auto|]. apply D; [lra|]. auto.
    + apply M; [apply D; auto|]. reflexivity.
Qed.

(* the Hermitian matrix with i above the diagonal and -i below it, two real
   shifts in one round and one in the next *)
Example C100_hypotheses : forall rand v,
  let A := fun r c : nat => if Nat.eqb c (S r) then (0, 1)%R : C else if Nat.eqb r (S c) then (0, -1)%R : C else RtoC 0 in
  crotation lartg_complex /\
  suited lartg_complex 5 A rand (Some (fun _ => RtoC 1)) 2 2 [[RtoC 1; RtoC 2]; [RtoC 3]] v /\
  (forall shifts, In shifts [[RtoC 1; RtoC 2]; [RtoC 3]] -> (length shifts < 2 + 2)%nat) /\
  A 0%nat 1%nat = (0, 1)%R.
Proof.
  intros rand v A. split; [apply lartg_complex_rotates|]. split; [left; split; [|split]|].
  - intros r c _ _. unfold A.
    destruct (Nat.eqb_spec c (S r)), (Nat.eqb_spec r (S c)); try lia; cx.
  - apply lartg_complex_real.
  - intros sh s [<-|[<-|[]]]; simpl; intros H; repeat destruct H as [<-|H]; try reflexivity; contradiction.
  - split; [intros sh [<-|[<-|[]]]; simpl; lia|reflexivity].
Qed.

(* a matrix that is not Hermitian, with one complex shift in each round *)
Example C100_single_shifts : forall rand v,
  suited lartg_complex 3 split_matrix rand (Some (fun _ => RtoC 1)) 1 2 [[(1, 2)%R : C]; [(0, 1)%R : C]] v.
Proof. intros. right. left. intros sh [<-|[<-|[]]]; simpl; lia. Qed.

(* one step on a diagonal matrix from its second unit vector *)
Lemma diagonal_factored : forall (z : nat -> C) rand v,
  let A := fun r c : nat => if Nat.eqb r c then z r else RtoC 0 in
  exists s, znaup2 real_size 0 0 lartg_complex 3 A rand (Some (eye 1)) 1 0 [] v = Zfactored s /\
    critz (1 + 0) (ah s) (z 1%nat) (fun _ => RtoC 1) /\
    zestimate (1 + 0) (anrm s) (fun _ => RtoC 1) = 0%R /\
    ceigenbasis 3 A eye z.
Proof.
  intros z rand v A.
  assert (Hu : ceigenbasis 3 A eye z).
  { split; [|split].
    - intros a c Ha Hc. unfold cdot, eye. cbn [csum].
      destruct a as [|[|[|]]], c as [|[|[|]]]; try lia; cbn [Nat.eqb]; cx.
    - intros k i Hk Hi. unfold cmul, eye, A. cbn [csum].
      destruct k as [|[|[|]]], i as [|[|[|]]]; try lia; cbn [Nat.eqb]; ring.
    - intros x i Hi. unfold ccombine. rewrite (csum_one 3 i); auto.
      + unfold eye, cdot. cbn [csum]. destruct i as [|[|[|]]]; try lia; cbn [Nat.eqb]; rewrite !conj_R; ring.
      + intros k Hk N. unfold eye at 1. destruct (Nat.eqb_spec k i); [lia|ring]. }
  pose proof (C100_factorization_partial lartg_complex 3 A rand (Some (eye 1)) 1 0 [] v
    lartg_complex_rotates ltac:(lia) ltac:(intros ? []) ltac:(right; left; intros ? [])) as F.
  cbv zeta in F.
  destruct (znaup2 real_size 0 0 lartg_complex 3 A rand (Some (eye 1)) 1 0 [] v) as [|k s|s|] eqn:E.
  - specialize (F 1%nat ltac:(lia)). unfold eye in F. cbn in F. apply RtoC_inj in F. lra.
  - lia.
  - exists s. split; [reflexivity|]. destruct F as [HL Hn]. cbn [Nat.add] in *.
    assert (Hv : forall i, (i < 3)%nat -> av s 0%nat i = eye 1 i).
    { revert E. unfold znaup2.
      assert (Le : clen 3 (eye 1) = 1%R).
      { unfold clen. destruct Hu as (Ho & _). rewrite Ho by lia. simpl. apply sqrt_1. }
      rewrite Le. destruct (Req_EM_T 1 0); [lra|].
      cbn [znaitr zsteps anrm]. unfold znaitr. cbn [zsteps anrm].
      destruct (Rlt_dec 0 1); [|lra]. intros E. injection E as <-.
      intros i Hi. unfold zgrow. cbn [anrm ares av ah arnd].
      destruct (if Rlt_dec _ _ then _ else _) as [[h' r'] x'].
      cbn [av]. rewrite zput_same. field. intros Z. apply RtoC_inj in Z. lra. }
    assert (Hm : forall i, (i < 3)%nat -> cmul 3 A (av s 0%nat) i = (z 1%nat) * eye 1 i).
    { intros i Hi. rewrite (cmul_ext 3 A (av s 0%nat) (eye 1)) by auto. destruct Hu as (_ & He & _).
      rewrite He by lia. reflexivity. }
    assert (Hh : ah s 0%nat 0%nat = (z 1%nat)).
    { rewrite (arnoldi_entry 3 A 1 _ _ _ 0 0 HL) by lia.
      rewrite (cdot_ext 3 _ _ (eye 1) (fun i => (z 1%nat) * eye 1 i)) by auto.
      rewrite cdot_scal. destruct Hu as (Ho & _). rewrite Ho by lia. cbn [Nat.eqb]. ring. }
    split; [|split; [|exact Hu]].
    + split.
      * unfold clen, cdot. cbn [csum]. rewrite conj_R. simpl. replace (_ + _)%R with 1%R by ring. apply sqrt_1.
      * intros r Hr. assert (r = 0%nat) by lia. subst r. unfold cmul. cbn [csum]. rewrite Hh. ring.
    + unfold zestimate. rewrite Hn, (clen_zero 3 (ares s)); [ring|].
      intros i Hi. destruct HL as (_ & _ & Hr & _). specialize (Hr 0%nat i ltac:(lia) Hi).
      cbn [Nat.eqb] in Hr. rewrite Hm in Hr by auto. unfold ccombine in Hr. cbn [csum] in Hr.
      rewrite Hh, Hv in Hr by auto.
      replace (ares s i) with (RtoC 0 + eye 1 i * (z 1%nat) + ares s i - (z 1%nat) * eye 1 i) by ring.
      rewrite <- Hr. ring.
  - contradiction.
Qed.

(* the matrix diag(0, i, 2 i): the eigenvalue i with estimate 0 *)
Example C100_factored : forall rand v,
  let A := fun r c : nat => if Nat.eqb r c then (0, INR r)%R : C else RtoC 0 in
  exists s, znaup2 real_size 0 0 lartg_complex 3 A rand (Some (eye 1)) 1 0 [] v = Zfactored s /\
    critz (1 + 0) (ah s) (0, 1)%R (fun _ => RtoC 1) /\
    zestimate (1 + 0) (anrm s) (fun _ => RtoC 1) = 0%R /\
    ceigenbasis 3 A eye (fun k => (0, INR k)%R).
Proof. intros rand v. exact (diagonal_factored (fun r => (0, INR r)%R) rand v). Qed.

(* the Hermitian matrix diag(0, 1, 2): the eigenvalue 1 with estimate 0 *)
Example C100_hermitian_case : forall rand v,
  let A := fun r c : nat => if Nat.eqb r c then RtoC (INR r) else RtoC 0 in
  crotation lartg_complex /\ hermitian 3 A /\ suited lartg_complex 3 A rand (Some (eye 1)) 1 0 [] v /\
  exists s, znaup2 real_size 0 0 lartg_complex 3 A rand (Some (eye 1)) 1 0 [] v = Zfactored s /\
    critz (1 + 0) (ah s) (RtoC 1) (fun _ => RtoC 1) /\
    (zestimate (1 + 0) (anrm s) (fun _ => RtoC 1) <= 0 * Rmax 1 (Cmod (RtoC 1)))%R.
Proof.
  intros rand v A. split; [apply lartg_complex_rotates|]. split; [|split].
  - intros r c _ _. unfold A. destruct (Nat.eqb_spec r c), (Nat.eqb_spec c r); try lia; subst; rewrite conj_R; reflexivity.
  - right. left. intros ? [].
  - destruct (diagonal_factored (fun r => RtoC (INR r)) rand v) as (s & E & Hy & Z & _).
    exists s. split; [exact E|]. split; [exact Hy|]. rewrite Z. lra.
Qed.

(* a factorization of length 3 restarted with two shifts; the first component
   of (A - 2) (A - 1) e_0 is 2 + 10 i *)
Example C100_restart_case :
  arnoldi 3 split_matrix (1 + length [RtoC 1; RtoC 2]) (av split_state) (ah split_state) (ares split_state) /\
  cfilter 3 split_matrix [RtoC 1; RtoC 2] (av split_state 0%nat) 0%nat = (2, 10)%R.
Proof.
  split; [apply split_arnoldi|]. unfold cfilter, cmul. cbn [csum split_matrix av split_state].
  unfold eye. cbn [Nat.eqb]. cx.
Qed.
