(* C107: tic and toc.  Vocabulary: S_Time.v, S_Double.v *)
From Coq Require Import Reals Lra.
From Flocq Require Import Core BinarySingleNaN.
From Verif Require Import Base M_Double S_Double L_Double S_Time M_Time L_Time.
Local Open Scope R_scope.

Lemma nth_after {A} (l : list A) x l' n : n = length l -> nth_error (l ++ x :: l') n = Some x.
Proof. intros ->. rewrite nth_error_app2, Nat.sub_diag by lia. reflexivity. Qed.
Lemma toc_result before t0 between t1 after : Forall (fun c => fst c <> Tic) between ->
  nth_error (program (before ++ (Tic, t0) :: between ++ (Toc, t1) :: after)) (length before + S (length between)) = Some (dsub (now t1) (now t0)).
Proof.
  intros N. unfold program. destruct (calls_app before (dofZ 0) ((Tic, t0) :: between ++ (Toc, t1) :: after)) as (s & -> & _). cbn [calls step].
  destruct (calls_app between (now t0) ((Toc, t1) :: after)) as (s' & -> & E). rewrite (E N). cbn [calls step].
  rewrite nth_error_app2 by (rewrite calls_length; lia). rewrite calls_length. replace (length before + S (length between) - length before)%nat with (S (length between)) by lia.
  cbn [nth_error]. apply nth_after. rewrite calls_length. reflexivity.
Qed.

(* In every program, toc() gives the time since the last call of tic(), to a
   microsecond, rounding included; it is not negative if the clock was not set
   back, and positive if a microsecond has passed. *)
Theorem C107_toc_partial : forall before t0 between t1 after,
  Forall (fun c => fst c <> Tic) between -> ok_moment t0 -> ok_moment t1 -> not_after t0 t1 ->
  exists r, nth_error (program (before ++ (Tic, t0) :: between ++ (Toc, t1) :: after)) (length before + S (length between)) = Some r /\
    finite r /\ 0 <= value r /\ Rabs (value r - (seconds t1 - seconds t0)) < microsecond /\
    (microsecond <= seconds t1 - seconds t0 -> 0 < value r).
Proof.
  intros before t0 between t1 after N H0 H1 L. eexists. split; [apply toc_result; exact N|].
  destruct (since_ok t0 t1 H0 H1) as (F & V & E). split; [exact F|]. split; [|split; [exact E|]].
  - rewrite V. rewrite <- RN_0. apply RN_le. pose proof (now_mono t0 t1 (ok_far _ H0) (ok_far _ H1) L). lra.
  - intros M. apply Rabs_def2 in E. lra.
Qed.
Print Assumptions C107_toc_partial.

(* The same for toc(when), if when is what a call of tic() returned, whatever
   calls there were in between. *)
Theorem C107_toc_since_partial : forall before t0, ok_moment t0 ->
  exists when, nth_error (program (before ++ [(Tic, t0)])) (length before) = Some when /\
  forall between t1 after, ok_moment t1 -> not_after t0 t1 ->
  exists r, nth_error (program (before ++ (Tic, t0) :: between ++ (TocSince when, t1) :: after)) (length before + S (length between)) = Some r /\
    finite r /\ 0 <= value r /\ Rabs (value r - (seconds t1 - seconds t0)) < microsecond /\
    (microsecond <= seconds t1 - seconds t0 -> 0 < value r).
Proof.
  intros before t0 H0. exists (now t0). split.
  { unfold program. destruct (calls_app before (dofZ 0) [(Tic, t0)]) as (s & -> & _). cbn [calls step]. apply nth_after. rewrite calls_length. reflexivity. }
  intros between t1 after H1 L. exists (dsub (now t1) (now t0)). split.
  { unfold program. destruct (calls_app before (dofZ 0) ((Tic, t0) :: between ++ (TocSince (now t0), t1) :: after)) as (s & -> & _). cbn [calls step].
    destruct (calls_app between (now t0) ((TocSince (now t0), t1) :: after)) as (s' & -> & _). cbn [calls step].
    rewrite nth_error_app2 by (rewrite calls_length; lia). rewrite calls_length. replace (length before + S (length between) - length before)%nat with (S (length between)) by lia.
    cbn [nth_error]. apply nth_after. rewrite calls_length. reflexivity. }
  destruct (since_ok t0 t1 H0 H1) as (F & V & E). split; [exact F|]. split; [|split; [exact E|]].
  - rewrite V. rewrite <- RN_0. apply RN_le. pose proof (now_mono t0 t1 (ok_far _ H0) (ok_far _ H1) L). lra.
  - intros M. apply Rabs_def2 in E. lra.
Qed.
Print Assumptions C107_toc_since_partial.

(* Even when the numbers of seconds are so large that the microseconds are lost
   in rounding, toc() is not negative if the clock was not set back. *)
Theorem C107_not_negative_partial : forall before t0 between t1 after,
  Forall (fun c => fst c <> Tic) between -> far_moment t0 -> far_moment t1 -> not_after t0 t1 ->
  exists r, nth_error (program (before ++ (Tic, t0) :: between ++ (Toc, t1) :: after)) (length before + S (length between)) = Some r /\
    finite r /\ 0 <= value r.
Proof.
  intros before t0 between t1 after N H0 H1 L. eexists. split; [apply toc_result; exact N|].
  destruct (since_far t0 t1 H0 H1) as (F & V). split; [exact F|]. rewrite V. rewrite <- RN_0. apply RN_le. pose proof (now_mono t0 t1 H0 H1 L). lra.
Qed.
Print Assumptions C107_not_negative_partial.

(* Of two calls of toc() after one of tic(), the second does not give less; also
   when the microseconds are lost in rounding. *)
Theorem C107_order_partial : forall before t0 b1 t1 b2 t2 after,
  Forall (fun c => fst c <> Tic) b1 -> Forall (fun c => fst c <> Tic) b2 -> far_moment t0 -> far_moment t1 -> far_moment t2 -> not_after t1 t2 ->
  let results := program (before ++ (Tic, t0) :: b1 ++ (Toc, t1) :: b2 ++ (Toc, t2) :: after) in
  exists r1 r2, nth_error results (length before + S (length b1)) = Some r1 /\
    nth_error results (length before + S (length b1 + S (length b2))) = Some r2 /\ value r1 <= value r2.
Proof.
  intros before t0 b1 t1 b2 t2 after N1 N2 H0 H1 H2 L results. exists (dsub (now t1) (now t0)), (dsub (now t2) (now t0)).
  split; [apply toc_result; exact N1|]. split.
  - unfold results. pose proof (toc_result before t0 (b1 ++ (Toc, t1) :: b2) t2 after) as E. rewrite <- app_assoc in E. cbn [app] in E. rewrite app_length in E. cbn [length] in E. apply E.
    apply Forall_app. split; [exact N1|]. constructor; [discriminate|exact N2].
  - destruct (since_far t0 t1 H0 H1) as (_ & ->). destruct (since_far t0 t2 H0 H2) as (_ & ->). apply RN_le. pose proof (now_mono t1 t2 H1 H2 L). lra.
Qed.
Print Assumptions C107_order_partial.

(* The clock of gettimeofday can be set while the program runs: whenever it was
   set back by more than the time that passed, toc() is negative. *)
Theorem C107_set_back_refuted : forall before t0 between t1 after,
  Forall (fun c => fst c <> Tic) between -> ok_moment t0 -> ok_moment t1 -> seconds t1 + microsecond <= seconds t0 ->
  exists r, nth_error (program (before ++ (Tic, t0) :: between ++ (Toc, t1) :: after)) (length before + S (length between)) = Some r /\ value r < 0.
Proof.
  intros before t0 between t1 after N H0 H1 L. eexists. split; [apply toc_result; exact N|]. destruct (since_ok t0 t1 H0 H1) as (_ & _ & E). apply Rabs_def2 in E. lra.
Qed.
Print Assumptions C107_set_back_refuted.

(* Without a call of tic(), toc() gives the time since 1970. *)
Theorem C107_no_tic_refuted : forall before t after, Forall (fun c => fst c <> Tic) before -> ok_moment t ->
  exists r, nth_error (program (before ++ (Toc, t) :: after)) (length before) = Some r /\ Rabs (value r - seconds t) < microsecond.
Proof.
  intros before t after N H. unfold program. destruct (calls_app before (dofZ 0) ((Toc, t) :: after)) as (s & -> & E). rewrite (E N). cbn [calls step]. eexists.
  split; [apply nth_after; rewrite calls_length; reflexivity|].
  destruct (now_ok t H) as (F & R & B). destruct (dofZ_ok 0) as [F0 V0]; [lia|].
  destruct (dsub_ok (now t) (dofZ 0) F F0) as [_ V]; [rewrite V0; apply fits_small; apply Rabs_le; lra|]. rewrite V, V0, Rminus_0_r, RN_id by apply value_rep.
  unfold microsecond. lra.
Qed.
Print Assumptions C107_no_tic_refuted.

(* The accuracy is lost as the seconds grow: from the year 2514 on a microsecond
   may be measured as zero. *)
Theorem C107_late_refuted : forall before s between after,
  Forall (fun c => fst c <> Tic) between -> (2 ^ 34 <= s < 2 ^ 52)%Z ->
  exists r, nth_error (program (before ++ (Tic, mkMoment s 0) :: between ++ (Toc, mkMoment s 1) :: after)) (length before + S (length between)) = Some r /\ value r = 0.
Proof.
  intros before s between after N H. eexists. split; [apply toc_result; exact N|]. destruct (now_late s H) as [E0 E1].
  destruct (since_far (mkMoment s 0) (mkMoment s 1)) as (_ & ->); [split; cbn; lia|split; cbn; lia|]. rewrite E0, E1, Rminus_diag_eq by reflexivity. apply RN_0.
Qed.
Print Assumptions C107_late_refuted.

(* From 16 November 2026 at 23:59:59.999999 to the next second. *)
Example C107_nonvacuous : let t0 := mkMoment 1794873599 999999 in let t1 := mkMoment 1794873600 0 in
  ok_moment t0 /\ ok_moment t1 /\ not_after t0 t1 /\ microsecond <= seconds t1 - seconds t0 /\ seconds t0 + microsecond <= seconds t1.
Proof. unfold ok_moment, not_after, seconds, microsecond. cbn [sec usec]. repeat split; try lia; lra. Qed.
