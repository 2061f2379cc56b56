(* C44: exclusive access to SDF_SHARED files.  Statements and their proofs. *)
From Verif Require Import Base M_Lock L_Lock.

(* Two processes can have the file open at once *)
Theorem C44_exclusive_refuted : exists s p q, star step init s /\ has_open s p /\ has_open s q /\ p <> q.
Proof. destruct two_holders as (s & H & H0 & H1). exists s, 0, 1. repeat split; auto. Qed.
Print Assumptions C44_exclusive_refuted.

(* Partial: not before some process has closed the file, whatever the number of
   processes, the interleaving and the processes killed *)
Theorem C44_before_release_partial : forall s p q, star step_before_release init s -> has_open s p -> has_open s q -> p = q.
Proof. exact before_release_exclusive. Qed.
Print Assumptions C44_before_release_partial.

(* Partial: never, if no other process acts between the open() and the flock()
   of a process *)
Theorem C44_atomic_acquire_partial : forall s p q, star atomic_step init s -> has_open s p -> has_open s q -> p = q.
Proof. exact atomic_exclusive. Qed.
Print Assumptions C44_atomic_acquire_partial.

(* in both kinds of histories the file does get opened, and while process 5 has
   it, process 3 can be refused; in the second kind it can be handed over *)
Example C44_nonvacuous :
  (exists s, star step_before_release init s /\ has_open s 5 /\ procs s 3 = Refused 0) /\
  (exists s, star atomic_step init s /\ has_open s 3 /\ procs s 5 = Idle /\ next s = 2).
Proof.
  split.
  - eexists. split.
    + eapply star_step. eapply star_step. eapply star_step. eapply star_step. apply star_refl.
      * apply (b_open 3). apply open_create; reflexivity.
      * apply (b_open 5). eapply open_existing; reflexivity.
      * apply (b_flock 5). eapply flock_ok; reflexivity.
      * apply (b_flock 3). eapply flock_busy; reflexivity.
    + split; [eexists; reflexivity|reflexivity].
  - eexists. split.
    + eapply star_step. eapply star_step. eapply star_step. eapply star_step. eapply star_step. eapply star_step. apply star_refl.
      * eapply (a_acquire 5). apply open_create; reflexivity. eapply flock_ok; reflexivity.
      * eapply (a_acquire 3). eapply open_existing; reflexivity. eapply flock_busy; reflexivity.
      * apply (a_retry 3). eapply retry; reflexivity.
      * apply (a_unlink 5). eapply do_unlink; reflexivity.
      * apply (a_close 5). eapply do_close; reflexivity.
      * eapply (a_acquire 3). apply open_create; reflexivity. eapply flock_ok; reflexivity.
    + split; [eexists; reflexivity|split; reflexivity].
Qed.
