(* C86: opening a file in SDF_SHARED mode comes to an end.  Statements and proofs. *)
From Verif Require Import Base M_GetLock.

Lemma lowest_free_spec l fd : lowest_free l = Some fd ->
  nth_error l fd = Some false /\ forall k, k < fd -> nth_error l k = Some true.
Proof.
  revert fd; induction l as [|[] l IH]; simpl; intros fd H; try discriminate.
  - destruct (lowest_free l) as [f|]; simpl in H; inversion H; subst.
    destruct (IH f eq_refl) as [H1 H2]. split; auto.
    intros [|k] Hk; simpl; auto. apply H2. lia.
  - inversion H; subst. split; auto. lia.
Qed.

Lemma upd_back (l : list bool) i v : nth_error l i = Some v -> upd (upd l i (negb v)) i v = l.
Proof.
  revert i; induction l as [|y l IH]; intros [|i] E; simpl in *; try discriminate.
  - congruence.
  - f_equal; auto.
Qed.

Lemma close_opened w fd : nth_error (fds w) fd = Some false ->
  (forall k, held w = Some k -> k <> fd) ->
  close_fd (mkProc (upd (fds w) fd true) (held w)) fd = w.
Proof.
  intros H Hh. unfold close_fd; simpl. change true with (negb false).
  rewrite upd_back; auto. destruct w as [l [k|]]; simpl in *; auto.
  destruct (Nat.eqb_spec k fd) as [->|]; auto. exfalso. eapply Hh; eauto.
Qed.

(* a descriptor that has the lock is in use *)
Definition held_used (w : proc) : Prop := forall k, held w = Some k -> nth_error (fds w) k = Some true.

Lemma attempt_cases a w : held_used w ->
  (creatable a = false \/ lowest_free (fds w) = None) /\ attempt a w = (w, inr None) \/
  (exists fd, creatable a = true /\ lowest_free (fds w) = Some fd /\ unsupported a = true /\
     attempt a w = (mkProc (upd (fds w) fd true) (held w), inl fd)) \/
  (exists fd, creatable a = true /\ lowest_free (fds w) = Some fd /\ unsupported a = false /\
     (busy a = true \/ held w <> None) /\ attempt a w = (w, inr None)) \/
  (exists fd, creatable a = true /\ lowest_free (fds w) = Some fd /\ unsupported a = false /\
     busy a = false /\ held w = None /\
     attempt a w = (mkProc (upd (fds w) fd true) (Some fd), inr (Some fd))).
Proof.
  intros HU. unfold attempt. destruct (creatable a); [|left; auto].
  destruct (lowest_free (fds w)) as [fd|] eqn:E; [|left; auto]. right.
  destruct (lowest_free_spec _ _ E) as [H1 _].
  destruct (unsupported a); [left; eauto|right].
  assert (Hc : close_fd (mkProc (upd (fds w) fd true) (held w)) fd = w).
  { apply close_opened; auto. intros k Hk ->. rewrite (HU _ Hk) in H1. discriminate. }
  destruct (busy a); simpl; [left; exists fd; rewrite Hc; auto 7|].
  destruct (held w) eqn:Eh; simpl.
  - left. exists fd. rewrite Hc. repeat split; auto. right. congruence.
  - right. exists fd. auto 7.
Qed.

(* C86, what holds: a process whose descriptor 0 is in use (and which has a
   descriptor to spare) that opens the file gets it no later than the first
   attempt made when the lock file can be opened and nobody has the lock.  It
   then has one descriptor more than before, and, if the file system knows
   locks, the lock; and the lock was free. *)
Theorem C86_opens_partial :
  forall env t w,
    nth_error (fds w) 0 = Some true -> In false (fds w) -> held w = None ->
    creatable (env t) = true -> busy (env t) = false ->
    exists fd u w', open_shared env (S t) w = Returned w' (Some fd) /\
      u <= t /\ fd <> 0 /\ nth_error (fds w) fd = Some false /\ fds w' = upd (fds w) fd true /\
      (unsupported (env u) = true /\ held w' = None \/
       unsupported (env u) = false /\ creatable (env u) = true /\ busy (env u) = false /\ held w' = Some fd).
Proof.
  intros env t w H0 Hf Hh Hc Hb.
  assert (Hlf : exists fd, lowest_free (fds w) = Some fd).
  { clear - Hf. induction (fds w) as [|[] l IH]; simpl in *; eauto; [tauto|].
    destruct IH as [fd ->]; [destruct Hf; [discriminate|auto]|]. simpl; eauto. }
  assert (HU : held_used w) by (intros k E; congruence).
  assert (Hpos : forall fd, lowest_free (fds w) = Some fd -> fd <> 0 /\ nth_error (fds w) fd = Some false).
  { intros fd E. destruct (lowest_free_spec _ _ E) as [H1 _]. split; auto. intros ->. congruence. }
  unfold open_shared.
  cut (forall n t0, t0 + n = S t -> 0 < n -> exists fd u w', get_lock true env t0 n w = Returned w' (Some fd) /\
      u <= t /\ fd <> 0 /\ nth_error (fds w) fd = Some false /\ fds w' = upd (fds w) fd true /\
      (unsupported (env u) = true /\ held w' = None \/
       unsupported (env u) = false /\ creatable (env u) = true /\ busy (env u) = false /\ held w' = Some fd)).
  { intros H. apply (H (S t) 0); lia. }
  induction n as [|n IH]; intros t0 Ht Hn; [lia|]. cbn [get_lock].
  destruct (attempt_cases (env t0) w HU) as
    [[HA ->]|[(fd & A1 & A2 & A3 & ->)|[(fd & A1 & A2 & A3 & A4 & ->)|(fd & A1 & A2 & A3 & A4 & A5 & ->)]]].
  - simpl. destruct (Nat.eq_dec n 0) as [->|Hn0].
    + replace t0 with t in HA by lia. exfalso. destruct Hlf as [fd Hlf]. destruct HA; congruence.
    + apply IH; lia.
  - destruct (Hpos fd A2) as [P1 P2]. exists fd, t0. eexists. split; [reflexivity|]. simpl. repeat split; auto; lia.
  - simpl. destruct (Nat.eq_dec n 0) as [->|Hn0].
    + replace t0 with t in A4 by lia. exfalso. destruct A4; congruence.
    + apply IH; lia.
  - destruct (Hpos fd A2) as [P1 P2]. exists fd, t0. eexists.
    destruct fd as [|fd]; [congruence|]. split; [reflexivity|]. simpl. repeat split; auto; try lia.
Qed.
Print Assumptions C86_opens_partial.

(* Opening and closing leaves the descriptors and the lock as they were. *)
Theorem C86_close_undoes_open_partial :
  forall env n w w' fd,
    nth_error (fds w) 0 = Some true -> held w = None ->
    open_shared env n w = Returned w' (Some fd) -> close_shared w' fd = w.
Proof.
  intros env n w w' fd H0 Hh. unfold open_shared.
  assert (HU : held_used w) by (intros k E; congruence).
  generalize 0 at 1 as t. induction n as [|n IH]; intros t E; cbn [get_lock] in E; [discriminate|].
  assert (Hpos : forall fd, lowest_free (fds w) = Some fd -> fd <> 0 /\ nth_error (fds w) fd = Some false).
  { intros fd' E'. destruct (lowest_free_spec _ _ E') as [H1 _]. split; auto. intros ->. congruence. }
  destruct (attempt_cases (env t) w HU) as
    [[HA HE]|[(fd' & A1 & A2 & A3 & HE)|[(fd' & A1 & A2 & A3 & A4 & HE)|(fd' & A1 & A2 & A3 & A4 & A5 & HE)]]];
    rewrite HE in E; simpl in E.
  - eapply IH; eauto.
  - inversion E; subst. destruct (Hpos _ A2) as [P1 P2]. unfold close_shared.
    destruct (Nat.eqb_spec fd 0); [congruence|]. apply close_opened; auto. intros k; congruence.
  - eapply IH; eauto.
  - destruct (Hpos _ A2) as [P1 P2]. destruct fd' as [|fd']; [congruence|]. simpl in E. inversion E; subst.
    unfold close_shared. cbn [Nat.eqb]. unfold close_fd. cbn [fds held]. rewrite Nat.eqb_refl.
    change true with (negb false). rewrite upd_back; auto. destruct w; simpl in *; congruence.
Qed.
Print Assumptions C86_close_undoes_open_partial.

(* C86 fails where the lock file cannot be created, in a directory that does not
   exist or that one may only read: the constructor never returns and never
   reports it.  This is the default mode of InDataFile too, which only reads. *)
Theorem C86_unwritable_refuted :
  forall env w, (forall t, creatable (env t) = false) -> forall n, open_shared env n w = Trying w.
Proof.
  intros env w H n. unfold open_shared. generalize 0 at 1 as t.
  induction n as [|n IH]; intros t; cbn [get_lock]; auto.
  unfold attempt. rewrite H. simpl. apply IH.
Qed.
Print Assumptions C86_unwritable_refuted.

(* C86 fails in a process started without standard input: whatever the others
   do, the constructor never returns, and from the first moment the lock is free
   the process has it and keeps it, while it waits for itself. *)
Theorem C86_no_stdin_refuted :
  forall env w, nth_error (fds w) 0 = Some false -> held w = None ->
    (forall t, unsupported (env t) = false) ->
    (forall n, exists w', open_shared env n w = Trying w') /\
    (forall t, creatable (env t) = true -> busy (env t) = false ->
       forall n, t < n -> exists w', open_shared env n w = Trying w' /\ held w' = Some 0).
Proof.
  intros env w H0 Hh Hs. unfold open_shared.
  assert (Hlf : lowest_free (fds w) = Some 0).
  { destruct (fds w) as [|[] l]; simpl in *; congruence. }
  assert (HU : held_used w) by (intros k E; congruence).
  (* once descriptor 0 has the lock *)
  assert (Hstuck : forall w2, held w2 = Some 0 -> nth_error (fds w2) 0 = Some true ->
            forall n t, get_lock true env t n w2 = Trying w2).
  { intros w2 E1 E2. assert (HU2 : held_used w2) by (intros k E; replace k with 0 by congruence; auto).
    induction n as [|n IH]; intros t; cbn [get_lock]; auto.
    destruct (attempt_cases (env t) w2 HU2) as
      [[HA ->]|[(fd & A1 & A2 & A3 & _)|[(fd & A1 & A2 & A3 & A4 & ->)|(fd & A1 & A2 & A3 & A4 & A5 & _)]]];
      try (simpl; apply IH); try congruence. }
  assert (Hdone : forall n t, let w2 := mkProc (upd (fds w) 0 true) (Some 0) in
     get_lock true env t n w2 = Trying w2).
  { intros n t. apply Hstuck; auto. cbn [fds]. apply nth_error_upd_eq. eapply nth_error_lt_inv; eauto. }
  assert (Hstep : forall n t, get_lock true env t (S n) w =
     get_lock true env (S t) n
       (if creatable (env t) && negb (busy (env t)) then mkProc (upd (fds w) 0 true) (Some 0) else w)).
  { intros n t. cbn [get_lock]. destruct (attempt_cases (env t) w HU) as
      [[HA ->]|[(fd & A1 & A2 & A3 & _)|[(fd & A1 & A2 & A3 & A4 & ->)|(fd & A1 & A2 & A3 & A4 & A5 & ->)]]].
    - destruct HA as [HA|HA]; [rewrite HA|congruence]. reflexivity.
    - rewrite Hs in A3; discriminate.
    - rewrite A1. destruct A4 as [A4|A4]; [rewrite A4; reflexivity|congruence].
    - rewrite A1, A4. rewrite Hlf in A2. inversion A2; subst. reflexivity. }
  split.
  - intros n. generalize 0 at 1 as t. induction n as [|n IH]; intros t; [eexists; reflexivity|].
    rewrite Hstep. destruct (creatable (env t) && negb (busy (env t))); [|apply IH].
    rewrite Hdone. eauto.
  - intros t Hc Hb n Hn.
    cut (forall n t0, t0 <= t -> t < t0 + n ->
           exists w', get_lock true env t0 n w = Trying w' /\ held w' = Some 0).
    { intros H. apply (H n 0); lia. }
    clear n Hn. induction n as [|n IH]; intros t0 H1 H2; [lia|]. rewrite Hstep.
    destruct (creatable (env t0) && negb (busy (env t0))) eqn:E.
    + rewrite Hdone. eexists; split; reflexivity.
    + apply IH; [|lia]. destruct (Nat.eq_dec t0 t) as [->|]; [|lia].
      rewrite Hc, Hb in E. discriminate.
Qed.
Print Assumptions C86_no_stdin_refuted.

(* Nor is the file ever obtained while somebody else has the lock. *)
Theorem C86_waits :
  forall env n w, held w = None ->
    (forall t, t < n -> busy (env t) = true /\ unsupported (env t) = false) ->
    open_shared env n w = Trying w.
Proof.
  intros env n w Hh H. unfold open_shared.
  assert (HU : held_used w) by (intros k E; congruence).
  cut (forall k t, t + k = n -> get_lock true env t k w = Trying w); [intros C; apply C; lia|].
  induction k as [|k IH]; intros t Ht; cbn [get_lock]; auto.
  destruct (H t ltac:(lia)) as [Hb Hs].
  destruct (attempt_cases (env t) w HU) as
    [[HA ->]|[(fd & A1 & A2 & A3 & _)|[(fd & A1 & A2 & A3 & A4 & ->)|(fd & A1 & A2 & A3 & A4 & A5 & _)]]];
    try congruence; simpl; apply IH; lia.
Qed.
Print Assumptions C86_waits.

(* Non-vacuity: descriptors 0, 1, 2 and 4 are in use, somebody else has the lock
   for three seconds; the process gets descriptor 3. *)
Example C86_nonvacuous :
  let env := fun t => mkA true (t <? 3) false in
  let w := mkProc [true; true; true; false; true; false] None in
  open_shared env 3 w = Trying w /\
  open_shared env 4 w = Returned (mkProc [true; true; true; true; true; false] (Some 3)) (Some 3) /\
  close_shared (mkProc [true; true; true; true; true; false] (Some 3)) 3 = w.
Proof. repeat split; reflexivity. Qed.
