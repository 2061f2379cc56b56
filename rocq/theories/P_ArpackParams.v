(* C97: the parameters of the library and the checks of the bundled ARPACK; the
   division of the work array. *)
From Verif Require Import Base Spec S_Arpack M_Tensor M_Eig M_Sparse M_Arpack S_ArpackParams M_ArpackParams L_Lin L_Arpack L_ArpackParams.
From Coq Require Import ZArith List String Lia.
Import ListNotations.
Local Open Scope nat_scope.

(* What is refused, and what is not, by each of the four routines. *)
Theorem C97_checks : forall p,
  (saupd_check p = 0 <->
     0 < a_n p /\ 0 < a_nev p < a_ncv p /\ a_ncv p <= a_n p /\ 0 < a_mxiter p /\ a_ncv p * a_ncv p + 8 * a_ncv p <= a_lworkl p /\
     In (a_which p) ["LM"; "SM"; "LA"; "SA"; "BE"]%string /\ ~ (a_nev p = 1 /\ a_which p = "BE"%string) /\
     (a_bmat p = "I"%string \/ a_bmat p = "G"%string /\ a_mode p <> 1) /\ 1 <= a_mode p <= 5 /\ 0 <= a_ishift p <= 1)%Z /\
  (forall nconv, seupd_check p nconv = Some 0 <->
     0 < nconv /\ 0 < a_n p /\ 0 < a_nev p < a_ncv p /\ a_ncv p <= a_n p /\
     In (a_which p) ["LM"; "SM"; "LA"; "SA"; "BE"]%string /\ ~ (a_nev p = 1 /\ a_which p = "BE"%string) /\
     (a_bmat p = "I"%string \/ a_bmat p = "G"%string /\ a_mode p <> 1) /\ 1 <= a_mode p <= 5 /\
     (a_rvec p = true -> a_ncv p * a_ncv p + 8 * a_ncv p <= a_lworkl p /\ In (a_howmny p) ["A"; "P"]%string))%Z /\
  (naupd_check p = 0 <->
     0 < a_n p /\ 0 < a_nev p < a_ncv p /\ a_ncv p <= a_n p /\ 0 < a_mxiter p /\ 3 * (a_ncv p * a_ncv p) + 5 * a_ncv p <= a_lworkl p /\
     In (a_which p) ["LM"; "SM"; "LR"; "SR"; "LI"; "SI"]%string /\
     (a_bmat p = "I"%string \/ a_bmat p = "G"%string /\ a_mode p <> 1) /\ 1 <= a_mode p <= 3)%Z /\
  (forall nconv, neupd_check p nconv = 0 <->
     0 < nconv /\ 0 < a_n p /\ 0 < a_nev p /\ a_nev p + 1 < a_ncv p /\ a_ncv p <= a_n p /\ 3 * (a_ncv p * a_ncv p) + 4 * a_ncv p <= a_lworkl p /\
     In (a_which p) ["LM"; "SM"; "LR"; "SR"; "LI"; "SI"]%string /\
     (a_bmat p = "I"%string \/ a_bmat p = "G"%string /\ a_mode p <> 1) /\ 1 <= a_mode p <= 3 /\ a_howmny p <> "S"%string /\
     (a_rvec p = true -> In (a_howmny p) ["A"; "P"]%string))%Z.
Proof.
  intros p. split; [|split; [|split]].
  - unfold saupd_check. cbv zeta. rewrite !if_0, !raise_0, !if_0 by discriminate.
    rewrite range_f, mode1_f, ishift_f, ends_f, real_which_f, bmat_f, ncv_f, !Z.leb_gt, Z.ltb_ge.
    split; [intros H|intros H]; repeat match goal with H : _ /\ _ |- _ => destruct H end; repeat split; auto; try lia; intuition congruence.
  - intros nconv. unfold seupd_check. cbv zeta. destruct (Z.eqb_spec nconv 0) as [->|Hn]; [split; [discriminate|intros (H & _); lia]|].
    match goal with |- Some ?x = Some 0%Z <-> _ => rewrite (conj (fun e : Some x = Some 0%Z => f_equal (fun o => match o with Some y => y | None => 0%Z end) e) (fun e : x = 0%Z => f_equal Some e) : Some x = Some 0%Z <-> x = 0%Z) end.
    rewrite !raise_0 by discriminate.
    rewrite ends_f, mode1_f, modes5_f, room_f, skip_f, howmny_f, bmat_f, real_which_f, ncv_f, !Z.leb_gt.
    split; intros H; repeat match goal with H : _ /\ _ |- _ => destruct H end; repeat split; auto; try lia; try (intuition congruence).
    all: intros; cbn in *; intuition congruence.
  - unfold naupd_check. rewrite !if_0 by discriminate.
    rewrite ncv_f, complex_which_f, bmat_f, range_f, mode1_f, !Z.leb_gt, Z.ltb_ge.
    split; intros H; repeat match goal with H : _ /\ _ |- _ => destruct H end; repeat split; auto; try lia; intuition congruence.
  - intros nconv. unfold neupd_check. cbv zeta. rewrite !raise_0, !if_0 by discriminate.
    rewrite ncv_f, complex_which_f, bmat_f, modes3_f, mode1_f, howmny_f, is_f, !Z.leb_gt, Z.ltb_ge.
    split; intros H; repeat match goal with H : _ /\ _ |- _ => destruct H end; repeat split; auto; try lia; try (intuition congruence).
    all: intros; cbn in *; intuition congruence.
Qed.
Print Assumptions C97_checks.

(* The object for real problems never makes a call that is refused. *)
Theorem C97_real : forall {E S T} (default_tol : T) (junk : nat -> E) (junk_state : S) n t code neig want,
  arpack_code true t = Some code -> 0 < neig -> neig < n ->
  exists o, arpack_new true default_tol junk junk_state n (eigtype_int t) neig = Ok o /\
    saupd_check (library_params (ob_problem o) want) = 0%Z /\
    forall nconv, (0 < nconv)%Z -> seupd_check (library_params (ob_problem o) want) nconv = Some 0%Z.
Proof.
  intros E S T tol junk js n t code neig want Hc H0 H1. eexists. split; [apply (arpack_new_ok true tol junk js n t code neig Hc H0 H1)|].
  pose proof (init_legal true tol n t code neig Hc H0 H1) as L. pose proof (codes_of true _ L) as Lw.
  destruct L as (L1 & L2 & L3 & L4 & L5 & _). cbn [ob_problem]. set (p := init_problem true tol n code neig) in *.
  assert (B : p_which p <> "BE"%string) by (cbn; destruct t; cbn in Hc; try discriminate; injection Hc as <-; discriminate).
  split; [|intros nconv Hn]; apply C97_checks; cbn [library_params a_n a_nev a_ncv a_lworkl a_which a_bmat a_howmny a_rvec a_ishift a_mxiter a_mode];
    repeat split; auto; try lia; try tauto; try nia; cbn; tauto.
Qed.
Print Assumptions C97_real.

(* The object for complex problems: the first routine never refuses; the second
   refuses exactly when all eigenvalues but one are wanted. *)
Theorem C97_complex_partial : forall {E S T} (default_tol : T) (junk : nat -> E) (junk_state : S) n t code neig want,
  arpack_code false t = Some code -> 0 < neig -> neig < n ->
  exists o, arpack_new false default_tol junk junk_state n (eigtype_int t) neig = Ok o /\
    naupd_check (library_params (ob_problem o) want) = 0%Z /\
    forall nconv, (0 < nconv)%Z ->
      neupd_check (library_params (ob_problem o) want) nconv = (if neig =? n - 1 then (-3)%Z else 0%Z).
Proof.
  intros E S T tol junk js n t code neig want Hc H0 H1. eexists. split; [apply (arpack_new_ok false tol junk js n t code neig Hc H0 H1)|].
  pose proof (init_legal false tol n t code neig Hc H0 H1) as L. pose proof (codes_of false _ L) as Lw.
  destruct L as (L1 & L2 & L3 & L4 & L5 & _). cbn [ob_problem].
  assert (Ev : p_nev (init_problem false tol n code neig) = neig) by reflexivity. assert (En : p_n (init_problem false tol n code neig) = n) by reflexivity.
  assert (Ec : p_ncv (init_problem false tol n code neig) = Nat.min (Nat.max (2 * neig) 20) n) by reflexivity.
  set (p := init_problem false tol n code neig) in *.
  split; [|intros nconv Hn; destruct (Nat.eqb_spec neig (n - 1)) as [El|El]].
  - apply C97_checks; cbn [library_params a_n a_nev a_ncv a_lworkl a_which a_bmat a_howmny a_rvec a_ishift a_mxiter a_mode].
    repeat split; auto; try lia; try tauto; try nia; cbn; tauto.
  - unfold neupd_check, library_params. cbn [a_n a_nev a_ncv a_lworkl a_which a_bmat a_howmny a_rvec a_ishift a_mxiter a_mode]. cbv zeta.
    replace (nconv <=? 0)%Z with false by lia. replace (Z.of_nat (p_n p) <=? 0)%Z with false by lia. replace (Z.of_nat (p_nev p) <=? 0)%Z with false by lia.
    replace (Z.of_nat (p_ncv p) <=? Z.of_nat (p_nev p) + 1)%Z with true by lia. reflexivity.
  - apply C97_checks; cbn [library_params a_n a_nev a_ncv a_lworkl a_which a_bmat a_howmny a_rvec a_ishift a_mxiter a_mode].
    repeat split; auto; try lia; try tauto; try nia; try discriminate; cbn; tauto.
Qed.
Print Assumptions C97_complex_partial.

Section Last.
Context {E R C S T : Type} (N : numops E) (default_tol : T).
Context (aupd : problem T -> io E S -> io E S).
Context (eupd : problem T -> bool -> io E S -> list E -> list E -> Z * list E * list E).
Context (junk : nat -> E) (junk_state : S).
Context (proj : C -> E) (to_c : E -> C) (re im modulus : C -> R) (neg : R -> R) (lt : R -> R -> bool).
Context (sorter : (nat -> nat -> bool) -> list nat -> list nat) (junkc : nat -> C).
Context (eigE : tensor E -> bool -> bool -> outcome (tensor C * option (tensor C) * option (tensor C))).
Context (eigC : tensor C -> bool -> bool -> outcome (tensor C * option (tensor C) * option (tensor C))).
Notation full := (eigs_full N false default_tol aupd eupd junk junk_state proj re im modulus neg lt sorter junkc eigE).
Notation domap := (do_eigs N false default_tol aupd eupd junk junk_state proj to_c re im modulus neg lt sorter junkc eigC).

(* eupd begins as zneupd does; nconv: what aupd left in iparam(5) *)
Definition begins_as_zneupd (nconv : S -> Z) : Prop := forall p want s room roomz,
  neupd_check (library_params p want) (nconv (io_state s)) <> 0%Z ->
  fst (fst (eupd p want s room roomz)) = neupd_check (library_params p want) (nconv (io_state s)).

Lemma last_iterative nconv : begins_as_zneupd nconv ->
  forall step, @keeps E S T step -> forall fuel n t code vectors conv v z c, arpack_code false t = Some code -> 1 < n ->
  eigs_iterative N false default_tol aupd eupd junk junk_state fuel step n (eigtype_int t) (n - 1) vectors conv = Ok (v, z, c) ->
  c = Some false /\ z = vectors.
Proof.
  intros HB step K fuel n t code vectors conv v z c Hc Hn H. unfold eigs_iterative in H.
  rewrite (arpack_new_ok false default_tol junk junk_state n t code (n - 1) Hc) in H by lia. cbn [bind] in H. rewrite start_ok in H. cbn [bind] in H.
  apply bind_ok in H as (o & Ho & H). apply (drive_keeps aupd step K) in Ho. cbn [ob_problem] in Ho.
  assert (X : forall w fuel, get_data eupd junk fuel o w = Abort).
  { intros w f2. unfold get_data. rewrite Ho.
    destruct (C97_complex_partial default_tol junk junk_state n t code (n - 1) w Hc ltac:(lia) ltac:(lia)) as (o2 & E2 & _ & H2).
    rewrite (arpack_new_ok false default_tol junk junk_state n t code (n - 1) Hc) in E2 by lia. injection E2 as <-. cbn [ob_problem] in H2.
    rewrite Nat.eqb_refl in H2. set (p := init_problem false default_tol n code (n - 1)) in *.
    match goal with |- context [eupd p w (ob_io o) ?a ?b] => pose proof (HB p w (ob_io o) a b) as HBB; destruct (eupd p w (ob_io o) a b) as [[info d] zz] end.
    cbn [fst] in HBB. assert (Hi : info <> 0%Z).
    { destruct (Z_lt_le_dec 0 (nconv (io_state (ob_io o)))) as [Hp|Hp].
      - rewrite (H2 _ Hp) in HBB. rewrite HBB; discriminate.
      - assert (Hx : neupd_check (library_params p w) (nconv (io_state (ob_io o))) = (-14)%Z).
        { unfold neupd_check. replace (nconv (io_state (ob_io o)) <=? 0)%Z with true by lia. reflexivity. }
        rewrite Hx in HBB. rewrite HBB; discriminate. }
    replace (info =? 0)%Z with false by lia. reflexivity. }
  destruct (ob_status o); try (destruct conv; [apply bind_ok in H as (z0 & _ & H); injection H as <- <- <-; auto|discriminate]).
  rewrite X in H. discriminate.
Qed.

(* So the eigenvalues of a complex matrix, or map, of more than four rows, all but
   one, are never found: whatever the rest of the library does and however it
   ends, no answer says that the values converged.  That n - 1 values can be
   computed is what the library says when it refuses n of them. *)
Theorem C97_all_but_one_refuted : forall nconv, begins_as_zneupd nconv ->
  (forall fuel (A : tensor E) n t code vectors conv v z c, dims A = [n; n] -> 4 < n -> arpack_code false t = Some code ->
     full fuel A (eigtype_int t) (n - 1) vectors conv = Ok (v, z, c) -> c = Some false /\ z = vectors) /\
  (forall fuel f n t code vectors conv v z c, 4 < n -> arpack_code false t = Some code ->
     domap fuel f n (eigtype_int t) (n - 1) vectors conv = Ok (v, z, c) -> c = Some false /\ z = vectors).
Proof.
  intros nconv HB. split.
  - intros fuel A n t code vectors conv v z c D H4 Hc. rewrite (full_large N false default_tol aupd eupd junk junk_state proj re im modulus neg lt sorter junkc eigE fuel A n) by (auto; lia).
    apply (last_iterative nconv HB _ (dense_keeps N n A) fuel n t code); auto; lia.
  - intros fuel f n t code vectors conv v z c H4 Hc. rewrite (domap_large N false default_tol aupd eupd junk junk_state proj to_c re im modulus neg lt sorter junkc eigC fuel f n) by (auto; lia).
    apply (last_iterative nconv HB _ (map_keeps f) fuel n t code); auto; lia.
Qed.
End Last.
Print Assumptions C97_all_but_one_refuted.

Local Open Scope Z_scope.
(* The work array of real problems.  All parts are inside of the array and those
   that are in use together are apart from each other.  The values and bounds
   that dsaup2 copies are those that dseupd looks for; they are in the place of
   parts that are written later, but apart from H, the values and the bounds. *)
Theorem C97_work_real : forall ncv lworkl, 0 < ncv -> ncv * ncv + 8 * ncv <= lworkl ->
  let s := saupd_divide ncv in let e := seupd_divide s ncv in
  Forall (inside lworkl) [sa_h s; sa_ritz s; sa_bounds s; sa_q s; sa_w s] /\ apart [sa_h s; sa_ritz s; sa_bounds s; sa_q s; sa_w s] /\
  Forall (inside lworkl) [se_h e; se_ritz e; se_bounds e; se_hd e; se_hb e; se_q e; se_w e] /\
  apart [se_h e; se_ritz e; se_bounds e; se_hd e; se_hb e; se_q e; se_w e] /\
  (se_h e, se_ritz e, se_bounds e) = (sa_h s, sa_ritz s, sa_bounds s) /\
  (se_rz e, se_bd e) = saup2_copies s ncv /\
  (forall i, member i (se_rz e) \/ member i (se_bd e) -> member i (sa_w s)) /\
  apart [se_h e; se_ritz e; se_bounds e; se_rz e; se_bd e] /\ apart [(fst (sa_w s), ncv); se_rz e; se_bd e].
Proof.
  intros ncv lworkl H0 H1 s e. subst e s. unfold saupd_divide, seupd_divide, saup2_copies, apart, inside, member.
  cbn [sa_h sa_ritz sa_bounds sa_q sa_w se_h se_ritz se_bounds se_hd se_hb se_q se_w se_rz se_bd fst snd In].
  repeat split; repeat constructor; cbn [fst snd]; try (intros; nia); try (f_equal; f_equal; lia).
  all: intros; repeat match goal with H : _ \/ _ |- _ => destruct H as [H|H] end; try contradiction; subst; cbn [fst snd] in *; try lia; nia.
Qed.
Print Assumptions C97_work_real.

(* The work array of complex problems. *)
Theorem C97_work_complex : forall ncv lworkl, 0 < ncv -> 3 * (ncv * ncv) + 5 * ncv <= lworkl ->
  let s := naupd_divide ncv in let e := neupd_divide s ncv in
  Forall (inside lworkl) [sa_h s; sa_ritz s; sa_bounds s; sa_q s; sa_w s] /\ apart [sa_h s; sa_ritz s; sa_bounds s; sa_q s; sa_w s] /\
  Forall (inside lworkl) [se_h e; se_ritz e; se_bounds e; se_hd e; se_hb e; se_q e; se_w e] /\
  apart [se_h e; se_ritz e; se_bounds e; se_hd e; se_hb e; se_q e; se_w e] /\
  (se_h e, se_ritz e, se_bounds e) = (sa_h s, sa_ritz s, sa_bounds s) /\
  (se_rz e, se_bd e) = naup2_copies s ncv /\
  (forall i, member i (se_rz e) \/ member i (se_bd e) -> member i (sa_w s)) /\
  apart [se_h e; se_ritz e; se_bounds e; se_rz e; se_bd e] /\ apart [(fst (sa_w s), ncv * ncv); se_rz e; se_bd e].
Proof.
  intros ncv lworkl H0 H1 s e. subst e s. unfold naupd_divide, neupd_divide, naup2_copies, apart, inside, member.
  cbn [sa_h sa_ritz sa_bounds sa_q sa_w se_h se_ritz se_bounds se_hd se_hb se_q se_w se_rz se_bd fst snd In].
  repeat split; repeat constructor; cbn [fst snd]; try (intros; nia); try (f_equal; f_equal; lia).
  all: intros; repeat match goal with H : _ \/ _ |- _ => destruct H as [H|H] end; try contradiction; subst; cbn [fst snd] in *; try lia; nia.
Qed.
Print Assumptions C97_work_complex.

(* A complex problem with five rows: three values are found by a library that
   finds them, of four none. *)
Definition ready_aupd (p : problem unit) (s : io Z unit) : io Z unit := mkIO tt 99 0 (io_resid s) (io_workd s) 0 0.
Definition ready_eupd (p : problem unit) (want : bool) (s : io Z unit) (room roomz : list Z) : Z * list Z * list Z :=
  (neupd_check (library_params p want) 1, room, roomz).
Definition five : tensor Z := mkT [5%nat; 5%nat] (repeat 0 25).
Example C97_case :
  begins_as_zneupd ready_eupd (fun _ => 1) /\
  (forall proj re im modulus neg lt sorter junkc eigE,
     let full := @eigs_full Z Z (Z * Z)%type unit unit Znum false tt ready_aupd ready_eupd (fun _ => 7) tt proj re im modulus neg lt sorter junkc eigE in
     full 9%nat five 0 3%nat None true = Ok (mkT [3%nat] [7; 7; 7], None, Some true) /\ full 9%nat five 0 4%nat None true = Abort) /\
  (let s := saupd_divide 5 in sa_q s = (21, 25)) /\ (let e := seupd_divide (saupd_divide 5) 5 in (se_q e = (31, 25) /\ se_rz e = (51, 5))).
Proof. split; [intros p want s room roomz _; reflexivity|]. split; [intros; split; reflexivity|]. split; [reflexivity|split; reflexivity]. Qed.
