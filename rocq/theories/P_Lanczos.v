(* C99: the Lanczos iteration of the bundled ARPACK on real numbers *)
From Coq Require Import Arith Lia Reals Lra List Bool.
Import ListNotations.
From Verif Require Import S_Lanczos M_Lanczos M_Sapps L_Lanczos L_Sapps L_Sapps2 L_Sapps3 L_Sapps4 L_LanczosShift L_Spectral.
Open Scope R_scope.

(* For each symmetric matrix, each starting vector that is not zero, all
   random vectors, all numbers of shifts in each round and all shifts, after
   any number of rounds there is a Lanczos factorization of the full length
   with the norm of its remainder, or the routine has found a subspace that
   the matrix maps into itself and says how large it is. It always ends and
   never divides by zero. Only a zero starting vector is refused.

   Partial: real numbers instead of doubles; so the threshold epsmch of
   dsapps, the distance from 1 to the next double, is 0. *)
Theorem C99_factorization_partial :
  forall lartg n A rand start nev0 np0 hist v d b,
    rotation lartg -> symmetric n A -> (0 < nev0)%nat ->
    (forall shifts, In shifts hist -> (length shifts < nev0 + np0)%nat) ->
    let first := match start with Some r => r | None => rand 0%nat end in
    match saup2 lartg 0 n A rand start nev0 np0 hist v d b with
    | Factored s =>
        lanczos n A (nev0 + np0) (lv s) (ld s) (lb s) (lres s) /\
        lnrm s = len n (lres s)
    | Subspace k s => (0 < k < nev0 + np0)%nat /\ invariant n A k (lv s)
    | NoStart => forall i, (i < n)%nat -> first i = 0
    | Broken => False
    end.
Proof.
  intros lartg n A rand start nev0 np0 hist v d b Hrot Hs Hnev Hh first.
  destruct (Req_EM_T (len n first) 0) as [Z|NZ].
  - assert (E : saup2 lartg 0 n A rand start nev0 np0 hist v d b = NoStart).
    { unfold saup2, first in *. destruct start as [r|].
      - destruct (Req_EM_T (len n r) 0); [reflexivity|contradiction].
      - destruct (Req_EM_T (len n (rand 0%nat)) 0); [reflexivity|contradiction]. }
    rewrite E. apply len_0; auto.
  - pose proof (saup2_factored lartg n A rand start nev0 np0 hist v d b Hrot Hs Hnev Hh NZ) as F.
    destruct (saup2 lartg 0 n A rand start nev0 np0 hist v d b) as [|k s|s|]; auto.
    + contradiction.
    + destruct F as (Hk & (Ho & Hf & Hr & Hb) & HZ). split; auto. split; auto.
      intros y. exists (fun r => hq k (ld s) (lb s) (fun r _ => y r) r 0). intros i Hi.
      pose proof (mul_columns n A k (lv s) (ld s) (lb s) (lres s) (fun r _ => y r) 0 i Hr ltac:(lia) Hi) as M.
      rewrite (HZ i Hi) in M. rewrite Rmult_0_l, Rplus_0_r in M. exact M.
Qed.
Print Assumptions C99_factorization_partial.

(* An implicit restart with the shifts s_1, ..., s_p begins a new factorization
   with the direction of (A - s_p) ... (A - s_1) v, v being the first vector
   before: eigenvectors whose eigenvalues are among the shifts are removed. *)
Theorem C99_restart_partial :
  forall lartg n A kev shifts s,
    rotation lartg -> (0 < kev)%nat ->
    lanczos n A (kev + length shifts) (lv s) (ld s) (lb s) (lres s) ->
    exists s' rho,
      sapps lartg 0 n kev shifts s = Some s' /\
      lanczos n A kev (lv s') (ld s') (lb s') (lres s') /\
      lnrm s' = len n (lres s') /\
      (forall i, (i < n)%nat -> filter n A shifts (lv s 0%nat) i = rho * lv s' 0%nat i) /\
      Rabs rho = len n (filter n A shifts (lv s 0%nat)).
Proof.
  intros lartg n A kev shifts s Hrot Hk HL.
  destruct (sapps_lanczos lartg n A kev shifts s Hrot Hk HL) as (s' & E & HL' & Hn & _).
  destruct (sapps_filter lartg n A kev shifts s s' Hrot Hk HL E) as (rho & Hr).
  exists s', rho. repeat (split; [assumption|]).
  rewrite (len_ext n _ (fun i => rho * lv s' 0%nat i)) by auto.
  unfold len. rewrite dot_scal, dot_comm, dot_scal. destruct HL' as (Ho & _).
  rewrite Ho by lia. simpl. rewrite Rmult_1_r. symmetry. apply sqrt_Rsqr_abs.
Qed.
Print Assumptions C99_restart_partial.

(* So the error estimate of a Ritz value is the exact residual of its vector:
   for each eigenpair of the tridiagonal matrix, the combination of the
   vectors has length one and misses being an eigenvector by the estimate. *)
Theorem C99_estimate_partial :
  forall lartg n A rand start nev0 np0 hist v d b s theta y,
    rotation lartg -> symmetric n A -> (0 < nev0)%nat ->
    (forall shifts, In shifts hist -> (length shifts < nev0 + np0)%nat) ->
    saup2 lartg 0 n A rand start nev0 np0 hist v d b = Factored s ->
    ritz (nev0 + np0) (ld s) (lb s) theta y ->
    len n (combine (nev0 + np0) (lv s) y) = 1 /\
    residual n A theta (combine (nev0 + np0) (lv s) y)
    = estimate (nev0 + np0) (lnrm s) y.
Proof.
  intros lartg n A rand start nev0 np0 hist v d b s theta y Hrot Hs Hnev Hh E [Hy1 Hy].
  pose proof (C99_factorization_partial lartg n A rand start nev0 np0 hist v d b Hrot Hs Hnev Hh) as F.
  cbv zeta in F. rewrite E in F. destruct F as [HL Hn].
  destruct (ritz_residual n A (nev0 + np0) _ _ _ _ y theta ltac:(lia) HL Hy) as [A1 A2].
  split; [rewrite A1; auto|]. unfold residual, estimate. rewrite A2, Hn. reflexivity.
Qed.
Print Assumptions C99_estimate_partial.

Lemma near_eigenvalue : forall n A u l x theta rho,
  eigenbasis n A u l -> len n x = 1 -> residual n A theta x = rho ->
  exists k, (k < n)%nat /\ Rabs (l k - theta) <= rho.
Proof.
  intros n A u l x theta rho (Ho & He & Hc) H1 Hr.
  set (c := fun k => dot n (u k) x).
  assert (Hx : forall i, (i < n)%nat -> x i = combine n u c i) by (intros; apply Hc; auto).
  assert (P : sum n (fun k => c k * c k) = 1).
  { rewrite <- (Rmult_1_r 1). rewrite <- H1 at 1. rewrite <- H1 at 1. rewrite len_sqr.
    rewrite (dot_ext n x x (combine n u c) (combine n u c)) by auto.
    symmetry. exact (dot_columns n n u (fun k _ => c k) 0 0 Ho). }
  assert (Q : sum n (fun k => ((l k - theta) * c k) * ((l k - theta) * c k)) = rho * rho).
  { rewrite <- Hr. unfold residual. rewrite len_sqr.
    set (g := fun i => mul n A x i - theta * x i).
    assert (Eg : forall i, (i < n)%nat -> g i = combine n u (fun k => (l k - theta) * c k) i).
    { intros i Hi. unfold g. rewrite (mul_ext n A x (combine n u c)) by auto. rewrite Hx by auto.
      rewrite mul_combine. unfold combine. rewrite <- sum_scal, <- sum_minus. apply sum_ext.
      intros k Hk. rewrite He by auto. ring. }
    rewrite (dot_ext n g g (combine n u (fun k => (l k - theta) * c k)) (combine n u (fun k => (l k - theta) * c k))) by auto.
    symmetry. exact (dot_columns n n u (fun k _ => (l k - theta) * c k) 0 0 Ho). }
  assert (Hp : 0 <= rho) by (rewrite <- Hr; apply len_nonneg).
  assert (D : (exists k, (k < n)%nat /\ Rabs (l k - theta) <= rho)
              \/ forall k, (k < n)%nat -> rho < Rabs (l k - theta)).
  { clear. induction n; [right; intros; lia|]. destruct IHn as [(k & Hk & L)|R].
    - left. exists k. split; auto.
    - destruct (Rle_dec (Rabs (l n - theta)) rho).
      + left. exists n. split; auto.
      + right. intros k Hk. destruct (Nat.eq_dec k n); [subst; lra|apply R; lia]. }
  destruct D as [D|D]; auto. exfalso.
  assert (W : 0 <= sum n (fun k => ((l k - theta) * c k) * ((l k - theta) * c k) - rho * rho * (c k * c k))).
  { apply sum_nonneg. intros k Hk. specialize (D k Hk).
    assert (rho * rho <= (l k - theta) * (l k - theta)).
    { assert (E : (l k - theta) * (l k - theta) = Rabs (l k - theta) * Rabs (l k - theta)).
      { rewrite <- Rabs_mult. symmetry. apply Rabs_pos_eq. apply Rle_0_sqr. }
      rewrite E. apply Rmult_le_compat; lra. }
    assert (0 <= c k * c k) by apply Rle_0_sqr. nra. }
  assert (Z : forall k, (k < n)%nat -> c k * c k = 0).
  { intros k Hk.
    assert (T : ((l k - theta) * c k) * ((l k - theta) * c k) - rho * rho * (c k * c k) = 0).
    { apply (sum_nonneg_0 n (fun k => ((l k - theta) * c k) * ((l k - theta) * c k) - rho * rho * (c k * c k))); auto.
      - intros k' Hk'. specialize (D k' Hk').
        assert (rho * rho <= (l k' - theta) * (l k' - theta)).
        { assert (E : (l k' - theta) * (l k' - theta) = Rabs (l k' - theta) * Rabs (l k' - theta)).
          { rewrite <- Rabs_mult. symmetry. apply Rabs_pos_eq. apply Rle_0_sqr. }
          rewrite E. apply Rmult_le_compat; lra. }
        assert (0 <= c k' * c k') by apply Rle_0_sqr. nra.
      - rewrite sum_minus, Q, sum_scal, P. ring. }
    specialize (D k Hk).
    assert (rho * rho < (l k - theta) * (l k - theta)).
    { assert (E : (l k - theta) * (l k - theta) = Rabs (l k - theta) * Rabs (l k - theta)).
      { rewrite <- Rabs_mult. symmetry. apply Rabs_pos_eq. apply Rle_0_sqr. }
      rewrite E. nra. }
    nra. }
  rewrite (sum_0 n _ Z) in P. lra.
Qed.

(* There is an eigenvalue of the matrix within the error estimate. So a Ritz
   value that passes the convergence test of ARPACK, estimate at most
   tol * max (eps23, |theta|) (dsconv, modelled in M_ArpackSelect), is that
   close to an eigenvalue. The matrix has an orthonormal basis of eigenvectors,
   by the spectral theorem, and in each such basis there is one with that
   eigenvalue. *)
Theorem C99_eigenvalue_partial :
  forall lartg n A rand start nev0 np0 hist v d b s theta y tol eps23,
    rotation lartg -> symmetric n A -> (0 < nev0)%nat ->
    (forall shifts, In shifts hist -> (length shifts < nev0 + np0)%nat) ->
    saup2 lartg 0 n A rand start nev0 np0 hist v d b = Factored s ->
    ritz (nev0 + np0) (ld s) (lb s) theta y ->
    estimate (nev0 + np0) (lnrm s) y <= tol * Rmax eps23 (Rabs theta) ->
    (exists u l, eigenbasis n A u l) /\
    forall u l, eigenbasis n A u l -> exists k, (k < n)%nat /\ Rabs (l k - theta) <= tol * Rmax eps23 (Rabs theta).
Proof.
  intros lartg n A rand start nev0 np0 hist v d b s theta y tol eps23 Hrot Hs Hnev Hh E Hy Ht.
  split; [apply spectral; auto|]. intros u l Hu.
  destruct (C99_estimate_partial lartg n A rand start nev0 np0 hist v d b s theta y Hrot Hs Hnev Hh E Hy) as [A1 A2].
  destruct (near_eigenvalue n A u l _ theta _ Hu A1 A2) as (k & Hk & L). exists k. split; auto. lra.
Qed.
Print Assumptions C99_eigenvalue_partial.

(* Refuted for matrices that are not symmetric, although eigs is documented
   for a "real nonsymmetric matrix" (linalg.h:167-172) and always calls this
   iteration (arpack_t.cc:148): on the 5 x 5 matrix with ones above the
   diagonal and with the last unit vector as a start, the Ritz value 1 has the
   error estimate 0, so that it passes the test for each tolerance, but 1 is
   not an eigenvalue: only the zero vector is mapped to itself. *)
Theorem C99_unsymmetric_refuted :
  exists A start theta, forall lartg eps rand nev0 np0 v d b,
    (nev0 + np0 = 5)%nat ->
    exists s y,
      saup2 lartg eps 5 A rand (Some start) nev0 np0 [] v d b = Factored s /\
      ritz 5 (ld s) (lb s) theta y /\
      estimate 5 (lnrm s) y = 0 /\
      (forall x, (forall i, (i < 5)%nat -> mul 5 A x i = theta * x i) ->
         forall i, (i < 5)%nat -> x i = 0).
Proof.
  exists shift, (unit 4), 1. intros lartg eps rand nev0 np0 v d b Hm.
  destruct (stepped_saup2 lartg eps 5 rand nev0 np0 v d b) as (s & E & Hv & Hd & Hb & Hr & Hn); auto; [lia|].
  exists s, (fun i => match i with 0%nat | 1%nat => 1/2 | 3%nat | 4%nat => - (1/2) | _ => 0 end).
  split; [exact E|]. split; [|split].
  - split.
    + unfold len, dot. cbn [sum]. replace (_ + _) with 1 by lra. apply sqrt_1.
    + intros c Hc. unfold tridiagonal. pose proof (Hb 1%nat ltac:(lia)). pose proof (Hb 2%nat ltac:(lia)).
      pose proof (Hb 3%nat ltac:(lia)). pose proof (Hb 4%nat ltac:(lia)).
      destruct c as [|[|[|[|[|]]]]]; try lia; rewrite Hd by lia; cbn [Nat.eqb Nat.sub];
        repeat match goal with H : lb s _ = 1 |- _ => rewrite H; clear H end; lra.
  - unfold estimate. rewrite Hn. cbn [Nat.ltb Nat.leb]. ring.
  - intros x Hx.
    assert (H4 : x 4%nat = 0) by (specialize (Hx 4%nat ltac:(lia)); rewrite shift_mul in Hx by lia; cbn in Hx; lra).
    assert (H3 : x 3%nat = 0) by (specialize (Hx 3%nat ltac:(lia)); rewrite shift_mul in Hx by lia; cbn in Hx; lra).
    assert (H2 : x 2%nat = 0) by (specialize (Hx 2%nat ltac:(lia)); rewrite shift_mul in Hx by lia; cbn in Hx; lra).
    assert (H1 : x 1%nat = 0) by (specialize (Hx 1%nat ltac:(lia)); rewrite shift_mul in Hx by lia; cbn in Hx; lra).
    assert (H0 : x 0%nat = 0) by (specialize (Hx 0%nat ltac:(lia)); rewrite shift_mul in Hx by lia; cbn in Hx; lra).
    intros i Hi. destruct i as [|[|[|[|[|]]]]]; auto; lia.
Qed.
Print Assumptions C99_unsymmetric_refuted.

(* ---- the hypotheses are met ---- *)

(* a rotation for all f and g *)
Definition lartg_real (f g : R) : R * R * R :=
  if Req_EM_T g 0 then (1, 0, f)
  else let r := sqrt (f * f + g * g) in (f / r, g / r, r).

Example lartg_rotates : rotation lartg_real.
Proof.
  intros f g. unfold lartg_real. destruct (Req_EM_T g 0).
  - subst. unfold rotates. repeat split; ring.
  - assert (P : 0 < f * f + g * g) by (assert (0 < g * g) by nra; nra).
    pose proof (sqrt_lt_R0 _ P) as L. pose proof (sqrt_sqrt (f * f + g * g) ltac:(lra)) as Q.
    cbv zeta. set (r := sqrt (f * f + g * g)) in *. unfold rotates. repeat split.
    + replace (f / r * (f / r) + g / r * (g / r)) with ((f * f + g * g) / (r * r)) by (field; lra).
      rewrite <- Q. field. lra.
    + replace (f / r * f + g / r * g) with ((f * f + g * g) / r) by (field; lra).
      rewrite <- Q. field. lra.
    + field. lra.
Qed.

(* the matrix of the path, ones beside the diagonal, and two shifts, then one *)
Example C99_hypotheses :
  let A := fun i j : nat => if (Nat.eqb i (S j) || Nat.eqb j (S i))%bool then 1 else 0 in
  rotation lartg_real /\ symmetric 5 A /\
  (forall shifts, In shifts [[1; 2]; [3]] -> (length shifts < 2 + 2)%nat) /\
  A 0%nat 1%nat = 1 /\ exists i, (i < 5)%nat /\ unit 4 i <> 0.
Proof.
  intros A. split; [apply lartg_rotates|]. split.
  - intros i j _ _. unfold A. rewrite orb_comm. reflexivity.
  - split; [intros sh [H|[H|[]]]; subst; simpl; lia|]. split; [reflexivity|].
    exists 4%nat. split; [lia|]. unfold unit. simpl. lra.
Qed.

(* one step on the matrix diag(0, 1, 2, ...) from its second unit vector finds
   the eigenvalue 1 with estimate 0: Factored does happen, with a Ritz pair *)
Example C99_factored : forall rand v d b,
  let A := fun i j : nat => if Nat.eqb i j then INR i else 0 in
  exists s, saup2 lartg_real 0 5 A rand (Some (unit 1)) 1 0 [] v d b = Factored s /\
    ritz (1 + 0) (ld s) (lb s) 1 (fun _ => 1) /\ estimate (1 + 0) (lnrm s) (fun _ => 1) = 0.
Proof.
  intros rand v d b A. unfold saup2. rewrite len_unit by lia.
  destruct (Req_EM_T 1 0) as [Z|_]; [lra|]. cbn [saitr lnrm Nat.eqb].
  destruct (Rlt_dec 0 1) as [_|Z]; [|lra].
  set (s0 := Lst v d b (unit 1) 1 0).
  assert (Ev : forall i, put (lv s0) 0 (fun i => lres s0 i / lnrm s0) 0%nat i = unit 1 i).
  { intros i. rewrite put_same. unfold s0. cbn [lres lnrm]. field. }
  assert (Ew : forall i, (i < 5)%nat ->
    mul 5 A (put (lv s0) 0 (fun i => lres s0 i / lnrm s0) 0%nat) i = unit 1 i).
  { intros i Hi. rewrite (mul_ext 5 A _ (unit 1)) by (intros; apply Ev).
    unfold mul, unit, A. destruct i as [|[|[|[|[|]]]]]; try lia; cbn [sum Nat.eqb]; simpl INR; lra. }
  assert (Ed : dot 5 (put (lv s0) 0 (fun i => lres s0 i / lnrm s0) 0%nat)
      (mul 5 A (put (lv s0) 0 (fun i => lres s0 i / lnrm s0) 0%nat)) = 1).
  { rewrite (dot_ext 5 _ _ (unit 1) (unit 1)); auto. rewrite dot_unit by lia. reflexivity. }
  destruct (grow_value 5 A 0 false true s0) as (r & E & Er).
  - unfold s0. cbn. lra.
  - intros a c Ha Hc. assert (a = 0%nat) by lia. assert (c = 0%nat) by lia. subst.
    rewrite (dot_ext 5 _ _ (unit 1) (unit 1)); auto. rewrite dot_unit by lia. reflexivity.
  - rewrite E. eexists. split; [reflexivity|]. cbn [ld lb lnrm]. split.
    + split.
      * unfold len, dot. cbn [sum Nat.add]. replace (0 + 1 * 1) with 1 by ring. apply sqrt_1.
      * intros c Hc. assert (c = 0%nat) by lia. subst c. unfold tridiagonal. cbn [Nat.eqb Nat.add].
        rewrite put_same, Ed. ring.
    + unfold estimate. rewrite (len_zero 5 r); [ring|]. intros i Hi. rewrite Er, Ew by auto.
      cbn [sum]. rewrite Ed, Ev. ring.
Qed.

(* the unit vectors are an eigenbasis of that matrix *)
Example C99_eigenbasis :
  eigenbasis 5 (fun i j : nat => if Nat.eqb i j then INR i else 0) unit INR.
Proof.
  split; [|split].
  - intros a c Ha Hc. rewrite dot_unit by auto. unfold unit. reflexivity.
  - intros k i Hk Hi. unfold mul. rewrite (sum_one 5 i); auto.
    + rewrite Nat.eqb_refl. unfold unit. destruct (Nat.eqb_spec i k); [subst; reflexivity|ring].
    + intros j Hj Hn. destruct (Nat.eqb_spec i j); [congruence|ring].
  - intros x i Hi. unfold combine. rewrite (sum_one 5 i); auto.
    + rewrite dot_unit by auto. unfold unit. rewrite Nat.eqb_refl. ring.
    + intros j Hj Hn. unfold unit. destruct (Nat.eqb_spec i j); [congruence|ring].
Qed.

(* a factorization of length 2 of the matrix with ones above and below the
   diagonal, restarted with one shift *)
Example C99_restart_case :
  lanczos 2 (fun i j => if Nat.eqb i j then 0 else 1) (1 + length [1]) unit (fun _ => 0) (fun _ => 1) (fun _ => 0) /\
  filter 2 (fun i j => if Nat.eqb i j then 0 else 1) [1] (unit 0) 0%nat = -1.
Proof.
  split; [|unfold filter, mul, unit; simpl; lra].
  split; [|split; [|split]].
  - intros a b Ha Hb. cbn in Ha, Hb. unfold dot, unit. destruct a as [|[|]], b as [|[|]]; simpl; try lia; lra.
  - intros a Ha. apply dot_0. auto.
  - intros c i Hc Hi. cbn in Hc. unfold mul, unit.
    destruct c as [|[|]], i as [|[|]]; simpl; try lia; lra.
  - intros. lra.
Qed.
