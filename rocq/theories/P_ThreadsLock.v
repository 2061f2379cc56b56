(* C77 for programs that hold a mutex during every call on vectors.
   Vocabulary: S_RefCount.v (srun: every variable has a private list), S_Threads.v. *)
From Verif Require Import Base M_RefCount S_RefCount L_RefCount M_Threads M_ThreadsLock S_Threads L_ThreadsLock.

(* Threads may copy and read what they share, and hand copies around in their own
   variables.  Under every schedule nothing goes wrong, and every thread observes,
   step by step, what its program observes on values, as if it were alone.  When
   all have ended, their variables have the values they should, the shared
   vectors are as they were, each counter is the number of variables that refer
   to the block, and no memory is left without a variable. *)
Theorem C77_locked_partial :
  forall (A : Type) (shared : list (list A)) (progs : list (list (op A))),
    Forall (Forall (leaves (length shared))) progs ->
    (forall p, In p progs -> srun (map Some shared) p <> None) ->
    forall sched, exists m ts, exec_locked sched (start shared progs) = Ok (m, ts) /\ length ts = length progs /\
      (forall i p tf xs, nth_error progs i = Some p -> srun (map Some shared) p = Some (tf, xs) ->
        exists t, nth_error ts i = Some t /\ (exists ys, xs = th_obs t ++ ys) /\ (finished t -> th_obs t = xs) /\
          (Forall finished ts ->
             map (fun v => match v with
                           | Some a => match block_at m a with Ok b => Some (bdata b) | _ => None end
                           | None => None end) (th_vars t) = tf)) /\
      (Forall finished ts ->
        (forall j l, nth_error shared j = Some l -> exists r, block_at m (0, j) = Ok (mkB l r)) /\
        (forall a b, block_at m a = Ok b ->
           brefs b = Z.of_nat (list_sum (map (fun t => count_occ adec (skipn (length shared) (th_vars t)) (Some a)) ts) + (if fst a =? 0 then 1 else 0)) /\
           (fst a = 0 \/ exists t, In t ts /\ In (Some a) (th_vars t)))).
Proof.
  intros A shared progs Fl Sr sched. destruct (start_idle shared progs Fl Sr) as (R & LR & HR & Id).
  assert (C : conf (length shared) shared R (start shared progs)) by (destruct (start shared progs) as [m0 ts0]; left; exact Id).
  destruct (exec_conf (length shared) shared R sched _ C) as ([m ts] & E & C' & L). cbn [snd] in L.
  assert (Lt : length ts = length progs) by (rewrite L; unfold start; cbn [snd]; apply map_length).
  assert (Fin : Forall finished ts -> idle (length shared) shared R m ts).
  { intros F. destruct C' as [C'|(i & t & p & m' & vs & x & E0 & C0 & _)]; [exact C'|]. exfalso.
    rewrite Forall_forall in F. destruct (F t) as [Q _]; [eapply nth_error_In; eauto|]. congruence. }
  exists m, ts. split; [exact E|]. split; [exact Lt|]. split.
  - intros i p tf xs Ep Es. pose proof (HR i p (tf, xs) Ep Es) as ER.
    destruct (nth_error ts i) as [t|] eqn:Et; [|apply nth_error_None in Et; assert (i < length progs) by (apply nth_error_Some; congruence); lia].
    exists t. split; [reflexivity|].
    assert (Ob : exists ys, xs = th_obs t ++ ys /\ (finished t -> ys = [])).
    { destruct C' as [C'|(i0 & t0 & p0 & m' & vs & x & E0 & C0 & No & Co & Id')].
      - destruct C' as (_ & _ & _ & _ & H). destruct (H i t Et) as (_ & _ & _ & tf' & xs' & s & ys & ER' & _ & Sr' & Ex). rewrite ER in ER'. injection ER' as <- <-.
        exists ys. split; [exact Ex|]. intros [_ F]. rewrite F in Sr'. cbn [srun] in Sr'. congruence.
      - destruct Id' as (_ & _ & _ & _ & H). destruct (Nat.eq_dec i i0) as [->|D].
        + rewrite Et in E0. injection E0 as <-. specialize (H i0 _ (nth_error_upd_eq ts i0 _ ltac:(apply nth_error_Some; congruence))).
          destruct H as (_ & _ & _ & tf' & xs' & s & ys & ER' & _ & Sr' & Ex). rewrite ER in ER'. injection ER' as <- <-. cbn [th_obs] in Ex.
          exists (x :: ys). split; [rewrite Ex, <- app_assoc; reflexivity|]. intros [F _]. congruence.
        + specialize (H i t). rewrite nth_error_upd_ne in H by auto. destruct (H Et) as (_ & _ & _ & tf' & xs' & s & ys & ER' & _ & Sr' & Ex). rewrite ER in ER'. injection ER' as <- <-.
          exists ys. split; [exact Ex|]. intros [_ F]. rewrite F in Sr'. cbn [srun] in Sr'. congruence. }
    destruct Ob as (ys & Ex & Ef). split; [eauto|]. split; [intros F; rewrite Ex, (Ef F), app_nil_r; reflexivity|].
    intros F. destruct (Fin F) as (_ & _ & _ & _ & H). destruct (H i t Et) as (_ & _ & _ & tf' & xs' & s & ys' & ER' & Ag & Sr' & _). rewrite ER in ER'. injection ER' as <- <-.
    rewrite Forall_forall in F. destruct (F t) as [_ Tt]; [eapply nth_error_In; eauto|]. rewrite Tt in Sr'. cbn [srun] in Sr'. injection Sr' as <- _.
    apply agree_values. exact Ag.
  - intros F. destruct (Fin F) as (_ & _ & [G1 G2] & Sh & H). split.
    + intros j l Ej. specialize (Sh j l Ej). unfold val in Sh. destruct (block_at m (0, j)) as [[d r]| | |]; try discriminate. cbn [bdata] in Sh. injection Sh as ->. eauto.
    + intros a b Eb. destruct (G1 a b Eb) as [Q P]. split; [exact Q|]. destruct (Nat.eq_dec (fst a) 0) as [|Na]; [auto|right].
      unfold base in P. replace (fst a =? 0) with false in P by (symmetry; apply Nat.eqb_neq; auto).
      assert (P' : 0 < total (length shared) ts a) by lia. clear - P'. unfold total, list_sum in P'.
      induction ts as [|t ts IH]; cbn [map fold_right] in P'; [lia|].
      destruct (cnt (length shared) (th_vars t) a) as [|c] eqn:Ec.
      * destruct IH as (t' & It & Ia); [lia|]. exists t'. split; [right; auto|auto].
      * exists t. split; [left; reflexivity|]. unfold cnt in Ec. assert (Ic : In (Some a) (skipn (length shared) (th_vars t))) by (apply (count_occ_In adec); lia).
        rewrite <- (firstn_skipn (length shared) (th_vars t)). apply in_or_app. auto.
Qed.
Print Assumptions C77_locked_partial.

(* ... and from every state that is reached all threads can be brought to their
   end: nobody waits for ever *)
Theorem C77_locked_ends_partial :
  forall (A : Type) (shared : list (list A)) (progs : list (list (op A))),
    Forall (Forall (leaves (length shared))) progs ->
    (forall p, In p progs -> srun (map Some shared) p <> None) ->
    forall sched, exists rest m ts, exec_locked (sched ++ rest) (start shared progs) = Ok (m, ts) /\ Forall finished ts.
Proof.
  intros A shared progs Fl Sr sched. destruct (start_idle shared progs Fl Sr) as (R & LR & HR & Id).
  assert (C : conf (length shared) shared R (start shared progs)) by (destruct (start shared progs) as [m0 ts0]; left; exact Id).
  destruct (exec_conf (length shared) shared R sched _ C) as (c & E & C' & L).
  destruct (conf_ends (length shared) shared R c C') as (rest & m & ts & E' & _ & F).
  exists rest, m, ts. split; [|exact F]. rewrite (exec_app _ _ _ _ E). exact E'.
Qed.
Print Assumptions C77_locked_ends_partial.

(* the programs of C77_copies_refuted and C77_value_refuted, with their schedules:
   they go wrong without the lock, and not with it *)
Example C77_locked_nonvacuous :
  let progs := [[OCopy 0; ODestroy 1; ORead 0 0]; [OCopy 0; OWrite 1 0 5; ORead 1 0]] in
  let sched := [0; 0; 1; 1; 0; 1; 0; 1; 0; 0; 0; 0; 1; 1; 1; 1; 1; 0; 0] in
  Forall (Forall (leaves 1)) progs /\ (forall p, In p progs -> srun (map Some [[7; 8]]) p <> None) /\
  (exists c, exec_locked sched (start [[7; 8]] progs) = Ok c) /\
  exists sched' m ts, exec_locked (sched ++ sched') (start [[7; 8]] progs) = Ok (m, ts) /\ Forall finished ts /\
    map th_obs ts = [[ONone; ONone; OVal 7]; [ONone; ONone; OVal 5]] /\ block_at m (0, 0) = Ok (mkB [7; 8] 1).
Proof.
  cbv zeta. split; [repeat constructor|]. split; [intros p [<-|[<-|[]]]; vm_compute; discriminate|]. split; [eexists; vm_compute; reflexivity|].
  exists [1; 1; 1; 1; 1; 1; 1; 1; 1; 1; 1; 1; 1; 1; 1; 1; 1; 1; 1; 1; 1; 1; 1; 1; 1; 0; 0; 0; 0; 0; 0; 0; 0; 0; 0; 0; 0]. eexists. eexists. split; [vm_compute; reflexivity|].
  split; [repeat constructor|]. split; reflexivity.
Qed.
