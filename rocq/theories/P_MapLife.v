(* C102: the solvers release the operators that they make *)
From Coq Require Import Permutation Lia.
From Verif Require Import Base M_RefCount S_RefCount L_RefCount M_MapLife S_MapLife L_MapLife L_MapLife2.

(* Whatever a program has done, a proper call never reads memory that has been
   given back: it returns, or the solver aborts or, for eigs, goes on for ever. *)
Theorem C102_safe : forall (A : Type) (bufs : list (list A)) w o,
  history any (start bufs) w -> proper w o ->
  (exists w' xs, ustep w o = Ok (w', xs)) \/
  (exists judge k src, o = USolve judge k src /\ (ustep w o = Abort \/ ustep w o = Hang /\ exists fuel n neig conv, k = Eigs fuel n neig conv)).
Proof.
  intros A bufs w o H P. destruct (ustep_ok w o (history_good _ _ _ (good_start bufs) H) P) as [(j & k & src & E & X)|(s' & xs & E & _)].
  - right. exists j, k, src. split; [exact E|]. destruct X as [X|(K & X)]; [auto|]. right. split; [exact X|]. destruct k; try discriminate. eauto.
  - left. eauto.
Qed.

(* In a call of a solver all applications of the operator use the same elements:
   those of the matrix, or of the function object, at the time of the call.  When
   cgs or eig_power returns, what it has made is gone, and nothing else has
   changed. *)
Theorem C102_solver : forall (A : Type) (bufs : list (list A)) w judge k src w' xs,
  history any (start bufs) w -> usable w src -> ustep w (USolve judge k src) = Ok (w', xs) ->
  (exists x n, xs = repeat x n /\
    match src with
    | FromMatrix hs => Forall2 (holds (mem w)) hs x
    | FromFunction f => exists vs, nth_error (funs w) f = Some (Some vs) /\ Forall2 (holds (mem w)) vs x
    end) /\
  (no_eigs (USolve judge k src) ->
    ext (mem w') = ext (mem w) /\ funs w' = funs w /\ maps w' = maps w ++ [None] /\ exists n, seen (mem w') = seen (mem w) ++ repeat None n).
Proof.
  intros A bufs w judge k src w' xs H U E. pose proof (history_good _ _ _ (good_start bufs) H) as G. cbn [ustep] in E.
  destruct (solve_ok judge k w src G U) as (x & R & [X|[(_ & X)|(s' & j & X & _ & Xe & S)]]); rewrite X in E; try discriminate. injection E as <- <-. split.
  - exists x, j. split; [reflexivity|]. destruct src as [hs|f]; cbn [reads usable] in *; [exact R|]. destruct U as (vs & Ev). exists vs. auto.
  - intros N. cbn [mem funs maps]. split; [exact Xe|]. split; [reflexivity|]. unfold left_map, left_seen in *. destruct k; cbn in *; try contradiction; split; eauto.
Qed.

(* A function object made by with_args keeps the elements that the parameters had
   when it was made, whatever the program does with its own vectors, until it ends. *)
Theorem C102_closure : forall (A : Type) (bufs : list (list A)) w hs ls w1 xs1,
  history any (start bufs) w -> Forall2 (fun h l => nth_error (seen (mem w)) h = Some (Some (Own l))) hs ls ->
  ustep w (UFun hs) = Ok (w1, xs1) ->
  forall w2 judge k w3 xs, history (fun o => o <> UDrop (length (funs w))) w1 w2 ->
  ustep w2 (USolve judge k (FromFunction (length (funs w)))) = Ok (w3, xs) -> Forall (eq ls) xs.
Proof.
  intros A bufs w hs ls w1 xs1 H F E w2 judge k w3 xs H2 E2. set (f := length (funs w)) in *.
  pose proof (history_good _ _ _ (good_start bufs) H) as G.
  assert (P : proper w (UFun hs)) by (cbn; clear - F; induction F; constructor; eauto; eexists; eauto).
  destruct (ustep_ok w (UFun hs) G P) as [(j & k' & src & X & _)|(s' & ys & X & G1 & _ & S)]; [discriminate|]. rewrite X in E. injection E as <- _. cbn [funs_after maps_after] in *.
  set (vs := seq (length (seen (mem w)) + length hs) (length hs)) in *.
  assert (K : Good w2 /\ nth_error (funs w2) f = Some (Some vs) /\ Forall2 (fun h l => nth_error (seen (mem w2)) h = Some (Some (Own l))) vs ls).
  { clear E2. induction H2 as [|w2 o w2' ys2 H2 IH Pr Dn Es].
    - split; [exact G1|]. split; [cbn [funs]; unfold f; rewrite nth_error_app2, Nat.sub_diag by lia; reflexivity|]. cbn [mem]. rewrite S. clear - F. unfold vs.
      assert (T : forall n pre s (hs : list nat) (ls : list (list A)), length pre = n -> Forall2 (fun h l => nth_error s h = Some (Some (Own l))) hs ls ->
        Forall2 (fun h l => nth_error (pre ++ map (fun h => nth h s None) hs) h = Some (Some (Own l))) (seq n (length hs)) ls).
      { intros n pre s gs ms Ln Fm. revert n pre Ln. induction Fm as [|h l gs ms Hh Fm IH]; intros n pre Ln; cbn [length seq map]; constructor.
        - rewrite nth_error_app2, Ln, Nat.sub_diag by lia. cbn. f_equal. apply (nth_error_nth _ _ None) in Hh. exact Hh.
        - specialize (IH (S n) (pre ++ [nth h s None])). rewrite <- app_assoc in IH. apply IH. rewrite app_length. cbn. lia. }
      rewrite app_assoc. apply (T _ (seen (mem w) ++ repeat None (length hs)) (seen (mem w))); [rewrite app_length, repeat_length; reflexivity|exact F].
    - destruct IH as (G2 & Ef & Fv). destruct (fun_kept w2 o w2' ys2 f vs G2 Pr Es Ef Dn) as (Ef' & Sv). split; [|split; [exact Ef'|]].
      + destruct (ustep_ok w2 o G2 Pr) as [(j & k' & src & _ & [Y|(_ & Y)])|(s2 & ys' & Y & G2' & _)]; rewrite Y in Es; try discriminate. injection Es as <- _. exact G2'.
      + clear - Fv Sv. induction Fv as [|h l us ms Hh _ IH]; constructor; [rewrite Sv by (left; reflexivity); exact Hh|]. apply IH. intros g Hg. apply Sv. right. exact Hg. }
  destruct K as (G2 & Ef & Fv). cbn [ustep] in E2.
  destruct (solve_ok judge k w2 (FromFunction f) G2 ltac:(exists vs; exact Ef)) as (x & R & [Y|[(_ & Y)|(s3 & j & Y & _)]]); rewrite Y in E2; try discriminate. injection E2 as _ <-.
  specialize (R vs Ef). assert (x = ls); [|subst x; rewrite Forall_forall; intros y Hy; apply repeat_spec in Hy; congruence].
  clear - R Fv. revert ls Fv. induction R as [|h l us ms (b & Hb & Hc) _ IH]; intros ls Fv; inversion Fv; subst; [reflexivity|]. f_equal; [|apply IH; assumption]. rewrite H1 in Hb. injection Hb as <-. cbn in Hc. congruence.
Qed.

(* In a program that does not call eigs with an operator, all memory is given back
   when the program's own vectors, function objects and operators have ended. *)
Theorem C102_released_partial : forall (A : Type) (bufs : list (list A)) w,
  history no_eigs (start bufs) w -> all_ended w -> all_free w.
Proof.
  intros A bufs w H (D & F & M). pose proof (history_good _ _ _ (good_start bufs) H) as G. apply (dead_free w G). intros h Hh. apply D in Hh.
  rewrite nothing_owned in Hh; [exact Hh|exact F|]. intros m p [|] Em; [exact (M m p Em)|exact (no_hidden bufs w H m p Em)].
Qed.

(* eigs with a sparse matrix: the copy of the matrix that it has made stays for
   ever, whatever the program does afterwards. *)
Theorem C102_eigs_never_released : forall (A : Type) (bufs : list (list A)) w judge fuel n neig conv hs w' xs,
  history any (start bufs) w -> Forall (alive (mem w)) hs -> ustep w (USolve judge (Eigs fuel n neig conv) (FromMatrix hs)) = Ok (w', xs) ->
  forall w'', history any w' w'' ->
  exists vs, Forall2 (fun v h => nth_error (seen (mem w'')) v = nth_error (seen (mem w)) h) vs hs /\ (forall v, In v vs -> alive (mem w'') v /\ In v (owned w'')) /\ (hs <> [] -> ~ all_free w'').
Proof.
  intros A bufs w judge fuel n neig conv hs w' xs H U E w'' H2. pose proof (history_good _ _ _ (good_start bufs) H) as G. cbn [ustep] in E.
  destruct (solve_ok judge (Eigs fuel n neig conv) w (FromMatrix hs) G U) as (x & _ & [X|[(_ & X)|(s' & j & X & G1 & _ & S)]]); rewrite X in E; try discriminate. injection E as <- _.
  unfold left_map, left_seen in *. cbn [gives_back made added] in *. set (vs := seq (length (seen (mem w))) (length hs)) in *. set (m := length (maps w)).
  assert (K : Good w'' /\ nth_error (maps w'') m = Some (Some (MMatrix vs, false)) /\ Forall2 (fun v h => nth_error (seen (mem w'')) v = nth_error (seen (mem w)) h) vs hs).
  { induction H2 as [|w2 o w2' ys2 H2 IH Pr Dn Es].
    - split; [exact G1|]. split; [cbn [maps]; unfold m; rewrite nth_error_app2, Nat.sub_diag by lia; reflexivity|]. cbn [mem]. rewrite S. clear - U. unfold vs.
      assert (T : forall k pre (hs : list nat), length pre = k -> Forall (alive (mem w)) hs ->
        Forall2 (fun v h => nth_error (pre ++ map (fun h => nth h (seen (mem w)) None) hs) v = nth_error (seen (mem w)) h) (seq k (length hs)) hs).
      { intros k pre gs Lk Fg. revert k pre Lk. induction Fg as [|h gs (b & Hb) Fg IH]; intros k pre Lk; cbn [length seq map]; constructor.
        - rewrite nth_error_app2, Lk, Nat.sub_diag by lia. cbn. rewrite Hb. f_equal. apply (nth_error_nth _ _ None) in Hb. exact Hb.
        - specialize (IH (S k) (pre ++ [nth h (seen (mem w)) None])). rewrite <- app_assoc in IH. apply IH. rewrite app_length. cbn. lia. }
      apply (T _ (seen (mem w))); [reflexivity|exact U].
    - destruct IH as (G2 & Em & Fv). destruct (map_kept w2 o w2' ys2 m vs G2 Pr Es Em) as (Em' & Sv). split; [|split; [exact Em'|]].
      + destruct (ustep_ok w2 o G2 Pr) as [(j' & k' & src & _ & [Y|(_ & Y)])|(s2 & ys' & Y & G2' & _)]; rewrite Y in Es; try discriminate. injection Es as <- _. exact G2'.
      + clear - Fv Sv. induction Fv as [|v h us ms Hh _ IH]; constructor; [rewrite Sv by (left; reflexivity); exact Hh|]. apply IH. intros g Hg. apply Sv. right. exact Hg. }
  destruct K as (G2 & Em & Fv). destruct (map_alive w'' m vs false G2 Em) as (L & _). rewrite Forall_forall in L. exists vs. split; [exact Fv|]. split.
  - intros v Hv. split; [apply L, Hv|]. unfold owned. rewrite in_app_iff. right. apply in_concat. exists vs. split; [|exact Hv]. change vs with (within (Some (MMatrix vs, false))). apply in_map. apply nth_error_In in Em. exact Em.
  - intros Hn Hf. destruct vs as [|v us] eqn:Ev; [inversion Fv; subst; contradiction|]. destruct (L v (or_introl eq_refl)) as (b & Eb). destruct (seen_inv _ _ _ Eb) as (a & p & _ & Ep & _).
    unfold all_free in Hf. rewrite Forall_forall in Hf. apply nth_error_In in Ep. apply Hf in Ep. discriminate.
Qed.

(* So the claim is false of eigs: one call, and the only vector is destroyed. *)
Theorem C102_released_refuted : exists w : world nat, history any (start []) w /\ all_ended w /\ ~ all_free w.
Proof.
  pose (w1 := mkW (mkS [Some (mkP (Own [5; 6]) 1 true)] [] [Some 0]) [] [] : world nat).
  pose (w2 := mkW (mkS [Some (mkP (Own [5; 6]) 2 true)] [] [Some 0; Some 0]) [] [Some (MMatrix [1], false)] : world nat).
  pose (w3 := mkW (mkS [Some (mkP (Own [5; 6]) 1 true)] [] [None; Some 0]) [] [Some (MMatrix [1], false)] : world nat).
  exists w3. split; [|split].
  - apply (history_step any _ w2 (UVec (ODestroy 0)) w3 []); [|split; [eexists; reflexivity|constructor; [cbn; lia|constructor]]|exact I|reflexivity].
    apply (history_step any _ w1 (USolve (fun _ => Stop) (Eigs 1 2 1 true) (FromMatrix [0])) w2 [[[5; 6]]; [[5; 6]]]); [|constructor; [eexists; reflexivity|constructor]|exact I|reflexivity].
    apply (history_step any _ (start []) (UVec (ONew [5; 6])) w1 []); [constructor|split; [exact I|constructor]|exact I|reflexivity].
  - split; [|split; [constructor|]].
    + intros [|[|h]] (b & Eb); cbn in Eb; try discriminate; [left; reflexivity|]. destruct h; discriminate.
    + intros [|m] p; cbn; [discriminate|]. destruct m; discriminate.
  - intros F. inversion F. discriminate.
Qed.

(* A FunctionMap that is kept must not be called after its function object has
   ended, as in FunctionMap<...> m(with_args(f, x)); m(y): memory that has been
   given back is read. *)
Theorem C102_kept_function_refuted :
  (forall (A : Type) (w : world A) m f k, nth_error (maps w) m = Some (Some (MFunction f, k)) -> nth_error (funs w) f = Some None -> ustep w (UApply m) = UB) /\
  exists (w : world nat), history any (start []) w /\ nth_error (maps w) 0 = Some (Some (MFunction 0, true)) /\ nth_error (funs w) 0 = Some None.
Proof.
  split.
  - intros A w m f k Em Ef. cbn [ustep]. unfold apply. rewrite Em, Ef. reflexivity.
  - pose (w1 := mkW (mkS [Some (mkP (Own [5; 6]) 1 true)] [] [Some 0]) [] [] : world nat).
    pose (w2 := mkW (mkS [Some (mkP (Own [5; 6]) 2 true)] [] [Some 0; None; Some 0]) [Some [2]] [] : world nat).
    pose (w3 := mkW (mkS [Some (mkP (Own [5; 6]) 2 true)] [] [Some 0; None; Some 0]) [Some [2]] [Some (MFunction 0, true)] : world nat).
    pose (w4 := mkW (mkS [Some (mkP (Own [5; 6]) 1 true)] [] [Some 0; None; None]) [None] [Some (MFunction 0, true)] : world nat).
    exists w4. split; [|split; reflexivity].
    apply (history_step any _ w3 (UDrop 0) w4 []); [|eexists; reflexivity|exact I|reflexivity].
    apply (history_step any _ w2 (UKeep (FromFunction 0)) w3 []); [|eexists; reflexivity|exact I|reflexivity].
    apply (history_step any _ w1 (UFun [0]) w2 []); [|constructor; [eexists; reflexivity|constructor]|exact I|reflexivity].
    apply (history_step any _ (start []) (UVec (ONew [5; 6])) w1 []); [constructor|split; [exact I|constructor]|exact I|reflexivity].
Qed.

(* A vector, a function object with a copy of it, a write to the vector, a solver
   with the function object that calls it three times, and then the end of all. *)
Example C102_case : exists w : world nat, history no_eigs (start []) w /\ all_ended w /\ length (heap (mem w)) = 2.
Proof.
  pose (w1 := mkW (mkS [Some (mkP (Own [5; 6]) 1 true)] [] [Some 0]) [] [] : world nat).
  pose (w2 := mkW (mkS [Some (mkP (Own [5; 6]) 2 true)] [] [Some 0; None; Some 0]) [Some [2]] [] : world nat).
  pose (w3 := mkW (mkS [Some (mkP (Own [5; 6]) 1 true); Some (mkP (Own [7; 6]) 1 true)] [] [Some 1; None; Some 0]) [Some [2]] [] : world nat).
  pose (w4 := mkW (mkS [Some (mkP (Own [5; 6]) 1 true); Some (mkP (Own [7; 6]) 1 true)] [] [Some 1; None; Some 0]) [Some [2]] [None] : world nat).
  pose (w5 := mkW (mkS [None; Some (mkP (Own [7; 6]) 1 true)] [] [Some 1; None; None]) [None] [None] : world nat).
  pose (w6 := mkW (mkS [None; None] [] [None; None; None]) [None] [None] : world nat).
  exists w6. split; [|split; [|reflexivity]].
  - apply (history_step no_eigs _ w5 (UVec (ODestroy 0)) w6 []); [|split; [eexists; reflexivity|constructor; [cbn; lia|constructor]]|exact I|reflexivity].
    apply (history_step no_eigs _ w4 (UDrop 0) w5 []); [|eexists; reflexivity|exact I|reflexivity].
    apply (history_step no_eigs _ w3 (USolve (fun xs => if length xs <? 3 then Continue else Stop) (Cgs 7) (FromFunction 0)) w4 (repeat [[5; 6]] 3)); [|eexists; reflexivity|exact I|reflexivity].
    apply (history_step no_eigs _ w2 (UVec (OWrite 0 0 7)) w3 []); [|split; [eexists; split; [reflexivity|cbn; lia]|constructor; [cbn; lia|constructor]]|exact I|reflexivity].
    apply (history_step no_eigs _ w1 (UFun [0]) w2 []); [|constructor; [eexists; reflexivity|constructor]|exact I|reflexivity].
    apply (history_step no_eigs _ (start []) (UVec (ONew [5; 6])) w1 []); [constructor|split; [exact I|constructor]|exact I|reflexivity].
  - split; [|split; [repeat constructor|]].
    + intros [|[|[|h]]] (b & Eb); cbn in Eb; try discriminate. destruct h; discriminate.
    + intros [|m] p; cbn; [discriminate|]. destruct m; discriminate.
Qed.

Print Assumptions C102_safe.
Print Assumptions C102_solver.
Print Assumptions C102_closure.
Print Assumptions C102_released_partial.
Print Assumptions C102_eigs_never_released.
Print Assumptions C102_released_refuted.
Print Assumptions C102_kept_function_refuted.
