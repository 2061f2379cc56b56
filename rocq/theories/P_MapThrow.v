(* C102: exceptions thrown by the function of a solver *)
From Coq Require Import Permutation Lia.
From Verif Require Import Base M_RefCount S_RefCount L_RefCount M_MapLife S_MapLife L_MapLife L_MapLife2 M_MapThrow.

(* Histories of proper operations that satisfy P and of solvers, called with
   function objects that have not ended, whose function throws; the program
   catches the exception and goes on. *)
Inductive history_thrown {A} (P : uop A -> Prop) (w0 : world A) : world A -> Prop :=
| thrown_start : history_thrown P w0 w0
| thrown_step w o w' xs : history_thrown P w0 w -> proper w o -> P o -> ustep w o = Ok (w', xs) -> history_thrown P w0 w'
| thrown_throw w n f w' xs : history_thrown P w0 w -> exists_fun w f -> thrown n w f = Ok (w', xs) -> history_thrown P w0 w'.

Lemma calls_ok {A} (w : world A) m x : apply w m = Ok x -> forall n, calls n w m = Ok (repeat x n).
Proof. intros E. induction n as [|n IH]; cbn [calls repeat]; [reflexivity|]. rewrite E. cbn [bind]. rewrite IH. reflexivity. Qed.
Lemma thrown_ok {A} n (w : world A) f vs : Good w -> nth_error (funs w) f = Some (Some vs) ->
  exists x, thrown n w f = Ok (mkW (mem w) (funs w) (maps w ++ [Some (MFunction f, false)]), repeat x (S n)) /\ Forall2 (holds (mem w)) vs x /\
    Good (mkW (mem w) (funs w) (maps w ++ [Some (MFunction f, false)])).
Proof.
  intros G Ev. destruct (new_map_ok w (FromFunction f) false G ltac:(exists vs; exact Ev)) as (s1 & E1 & G1 & _).
  cbn [new_map made] in E1. injection E1 as <-. cbn [made] in G1.
  destruct (fun_alive _ f vs G1 Ev) as (L & _). destruct (reads_all (mem w) vs (proj1 G) L) as (x & Ex & Hx).
  exists x. split; [|split; [exact Hx|exact G1]]. unfold thrown. cbn [new_map bind]. rewrite (calls_ok _ _ x); [reflexivity|].
  unfold apply. cbn [maps funs mem]. rewrite nth_error_app2, Nat.sub_diag by lia. cbn [nth_error]. rewrite Ev. exact Ex.
Qed.
Lemma thrown_good {A} P (w0 w : world A) : Good w0 -> history_thrown P w0 w -> Good w.
Proof.
  intros G H. induction H as [|w o w' xs _ IH Pr _ E|w n f w' xs _ IH (vs & Ev) E]; [exact G| |].
  - destruct (ustep_ok w o IH Pr) as [(j & k & src & _ & [X|(_ & X)])|(s' & ys & X & G' & _)]; rewrite X in E; try discriminate. injection E as <- _. exact G'.
  - destruct (thrown_ok n w f vs IH Ev) as (x & X & _ & G'). rewrite X in E. injection E as <- _. exact G'.
Qed.

(* After exceptions too a proper call never reads memory that has been given
   back; and a call that throws has read, up to then, the elements of the function
   object, and leaves all vectors, their elements and the function objects as they
   were. *)
Theorem C102_thrown_safe : forall (A : Type) (bufs : list (list A)) w, history_thrown any (start bufs) w ->
  (forall o, proper w o ->
    (exists w' xs, ustep w o = Ok (w', xs)) \/
    (exists judge k src, o = USolve judge k src /\ (ustep w o = Abort \/ ustep w o = Hang /\ exists fuel n neig conv, k = Eigs fuel n neig conv))) /\
  (forall n f vs, nth_error (funs w) f = Some (Some vs) ->
    exists w' x, thrown n w f = Ok (w', repeat x (S n)) /\ Forall2 (holds (mem w)) vs x /\ mem w' = mem w /\ funs w' = funs w).
Proof.
  intros A bufs w H. pose proof (thrown_good _ _ _ (good_start bufs) H) as G. split.
  - intros o P. destruct (ustep_ok w o G P) as [(j & k & src & E & X)|(s' & xs & E & _)].
    + right. exists j, k, src. split; [exact E|]. destruct X as [X|(K & X)]; [auto|]. right. split; [exact X|]. destruct k; try discriminate. eauto.
    + left. eauto.
  - intros n f vs Ev. destruct (thrown_ok n w f vs G Ev) as (x & X & Hx & _). eexists _, x. split; [exact X|]. auto.
Qed.

Lemma hidden_functions {A} (bufs : list (list A)) w : history_thrown no_eigs (start bufs) w -> forall m p, nth_error (maps w) m = Some (Some (p, false)) -> exists f, p = MFunction f.
Proof.
  intros H. induction H as [|w o w' xs H IH Pr Ne E|w n f w' xs H IH (vs & Ev) E]; [intros [|m] p; discriminate| |].
  - pose proof (thrown_good _ _ _ (good_start bufs) H) as G.
    destruct (ustep_ok w o G Pr) as [(j & k & src & _ & [X|(_ & X)])|(s' & ys & X & G' & _)]; rewrite X in E; try discriminate. injection E as <- _. cbn [maps].
    intros m p Em. destruct o as [o|hs|g|judge k src|src|m'|m']; cbn [maps_after] in Em; try exact (IH m p Em).
    + destruct (Nat.lt_ge_cases m (length (maps w))) as [L|L]; [rewrite nth_error_app1 in Em by exact L; exact (IH m p Em)|]. rewrite nth_error_app2 in Em by exact L.
      destruct (m - length (maps w)) as [|i]; [|destruct i; discriminate]. cbn in Em. unfold left_map in Em. destruct k; cbn in Ne, Em; try discriminate. contradiction.
    + destruct (Nat.lt_ge_cases m (length (maps w))) as [L|L]; [rewrite nth_error_app1 in Em by exact L; exact (IH m p Em)|]. rewrite nth_error_app2 in Em by exact L.
      destruct (m - length (maps w)) as [|i]; [|destruct i; discriminate]. cbn in Em. discriminate.
    + rewrite upd_nth in Em. destruct (Nat.eq_dec m' m); [destruct (m <? length (maps w)); discriminate|exact (IH m p Em)].
  - pose proof (thrown_good _ _ _ (good_start bufs) H) as G. destruct (thrown_ok n w f vs G Ev) as (x & X & _). rewrite X in E. injection E as <- _. cbn [maps].
    intros m p Em. destruct (Nat.lt_ge_cases m (length (maps w))) as [L|L]; [rewrite nth_error_app1 in Em by exact L; exact (IH m p Em)|]. rewrite nth_error_app2 in Em by exact L.
    destruct (m - length (maps w)) as [|i]; [|destruct i; discriminate]. injection Em as <-. eauto.
Qed.

(* In a program that does not call eigs with an operator otherwise, exceptions do
   not keep the memory of any vector: it is all given back when the program's own
   vectors, function objects and operators have ended. *)
Theorem C102_thrown_released_partial : forall (A : Type) (bufs : list (list A)) w,
  history_thrown no_eigs (start bufs) w -> all_ended w -> all_free w.
Proof.
  intros A bufs w H (D & F & M). pose proof (thrown_good _ _ _ (good_start bufs) H) as G. apply (dead_free w G). intros h Hh. apply D in Hh. revert Hh. unfold owned.
  assert (E1 : concat (map inside (funs w)) = []) by (clear - F; induction F as [|f l -> _ IH]; [reflexivity|exact IH]). rewrite E1. cbn [app]. rewrite in_concat.
  intros (vs & Hvs & Hh). apply in_map_iff in Hvs. destruct Hvs as (o & <- & Ho). apply In_nth_error in Ho. destruct Ho as (m & Em). destruct o as [[p [|]]|].
  - exact (M m p Em).
  - destruct (hidden_functions bufs w H m p Em) as (f & ->). exact Hh.
  - exact Hh.
Qed.

(* But the operator of the solver that was left by an exception stays for ever,
   whatever the program does: for cgs and eig_power too, which delete it when they
   return. *)
Theorem C102_thrown_refuted : forall (A : Type) (bufs : list (list A)) w n f w' xs,
  history_thrown any (start bufs) w -> exists_fun w f -> thrown n w f = Ok (w', xs) ->
  forall w'', history_thrown any w' w'' -> nth_error (maps w'') (length (maps w)) = Some (Some (MFunction f, false)).
Proof.
  intros A bufs w n f w' xs H (vs & Ev) E w'' H2. pose proof (thrown_good _ _ _ (good_start bufs) H) as G. destruct (thrown_ok n w f vs G Ev) as (x & X & _ & G').
  rewrite X in E. injection E as <- _. set (m := length (maps w)).
  induction H2 as [|w2 o w2' ys2 H2 IH Pr Dn Es|w2 k g w2' ys2 H2 IH (us & Eu) Es].
  - cbn [maps]. unfold m. rewrite nth_error_app2, Nat.sub_diag by lia. reflexivity.
  - pose proof (thrown_good _ _ _ G' H2) as G2. assert (Lm : m < length (maps w2)) by (apply nth_error_Some; congruence).
    destruct (ustep_ok w2 o G2 Pr) as [(j & k & src & _ & [Y|(_ & Y)])|(s' & ys & Y & _)]; rewrite Y in Es; try discriminate. injection Es as <- _. cbn [maps].
    destruct o as [o|hs|g|judge k src|src|m'|m']; cbn [maps_after]; try exact IH; try (rewrite nth_error_app1; assumption). rewrite nth_error_upd_ne; [exact IH|]. intros ->. cbn in Pr. destruct Pr as (p & Ep). congruence.
  - pose proof (thrown_good _ _ _ G' H2) as G2. assert (Lm : m < length (maps w2)) by (apply nth_error_Some; congruence).
    destruct (thrown_ok k w2 g us G2 Eu) as (y & Y & _). rewrite Y in Es. injection Es as <- _. cbn [maps]. rewrite nth_error_app1; assumption.
Qed.

(* A vector, a function object with a copy of it, a solver whose function throws
   in its third call, and then the end of all: one operator is left. *)
Example C102_thrown_case : exists w : world nat, history_thrown no_eigs (start []) w /\ all_ended w /\ maps w = [Some (MFunction 0, false)].
Proof.
  pose (w1 := mkW (mkS [Some (mkP (Own [5; 6]) 1 true)] [] [Some 0]) [] [] : world nat).
  pose (w2 := mkW (mkS [Some (mkP (Own [5; 6]) 2 true)] [] [Some 0; None; Some 0]) [Some [2]] [] : world nat).
  pose (w3 := mkW (mkS [Some (mkP (Own [5; 6]) 2 true)] [] [Some 0; None; Some 0]) [Some [2]] [Some (MFunction 0, false)] : world nat).
  pose (w4 := mkW (mkS [Some (mkP (Own [5; 6]) 1 true)] [] [Some 0; None; None]) [None] [Some (MFunction 0, false)] : world nat).
  pose (w5 := mkW (mkS [None] [] [None; None; None]) [None] [Some (MFunction 0, false)] : world nat).
  exists w5. split; [|split; [|reflexivity]].
  - apply (thrown_step no_eigs _ w4 (UVec (ODestroy 0)) w5 []); [|split; [eexists; reflexivity|constructor; [cbn; lia|constructor]]|exact I|reflexivity].
    apply (thrown_step no_eigs _ w3 (UDrop 0) w4 []); [|eexists; reflexivity|exact I|reflexivity].
    apply (thrown_throw no_eigs _ w2 2 0 w3 (repeat [[5; 6]] 3)); [|eexists; reflexivity|reflexivity].
    apply (thrown_step no_eigs _ w1 (UFun [0]) w2 []); [|constructor; [eexists; reflexivity|constructor]|exact I|reflexivity].
    apply (thrown_step no_eigs _ (start []) (UVec (ONew [5; 6])) w1 []); [constructor|split; [exact I|constructor]|exact I|reflexivity].
  - split; [|split; [repeat constructor|]].
    + intros [|[|[|h]]] (b & Eb); cbn in Eb; try discriminate. destruct h; discriminate.
    + intros [|m] p; cbn; [discriminate|]. destruct m; discriminate.
Qed.

Print Assumptions C102_thrown_safe.
Print Assumptions C102_thrown_released_partial.
Print Assumptions C102_thrown_refuted.
