(* C77: several threads use vectors at the same time.  Model: M_Threads.v, in
   which the threads take turns memory access by memory access.  Values:
   [srun] of S_RefCount.v, in which every variable owns a private list. *)
From Verif Require Import Base M_RefCount S_RefCount M_Threads S_Threads L_Threads.

(* C77 fails when a thread copies a vector that another thread uses, even if
   nobody modifies it: the counter of references is a plain integer.  Two
   threads copy the same vector and destroy their copies; the vector itself is
   deleted, and the next access is to freed memory. *)
Theorem C77_copies_refuted :
  exists (shared : list (list nat)) (progs : list (list (op nat))) (sched : list nat),
    (forall p, In p progs -> srun (map Some shared) p <> None) /\
    exec sched (start shared progs) = UB.
Proof.
  exists [[7; 8]], [[OCopy 0; ODestroy 1; ORead 0 0]; [OCopy 0; ODestroy 1]],
    [0; 0; 1; 1; 0; 1; 0; 1; 0; 0; 0; 0; 1; 1; 1; 1; 1; 0; 0].
  split; [|vm_compute; reflexivity].
  intros p [<-|[<-|[]]]; vm_compute; discriminate.
Qed.
Print Assumptions C77_copies_refuted.

(* A thread that writes its own copy changes what another thread reads. *)
Theorem C77_value_refuted :
  exists (shared : list (list nat)) (progs : list (list (op nat))) (sched : list nat) m ts t tf xs,
    (forall p, In p progs -> srun (map Some shared) p <> None) /\
    exec sched (start shared progs) = Ok (m, ts) /\ Forall finished ts /\
    nth_error ts 1 = Some t /\
    (exists p, nth_error progs 1 = Some p /\ srun (map Some shared) p = Some (tf, xs)) /\
    th_obs t <> xs.
Proof.
  exists [[7; 8]], [[OCopy 0; OWrite 1 0 5]; [OCopy 0; ODestroy 1; ORead 0 0]],
    [0; 0; 1; 1; 0; 1; 0; 1; 1; 1; 1; 1; 0; 0; 0; 0; 1; 1; 1].
  eexists; eexists; eexists; eexists; eexists.
  split; [intros p [<-|[<-|[]]]; vm_compute; discriminate|].
  split; [vm_compute; reflexivity|]. split; [repeat constructor|].
  split; [reflexivity|]. split; [eexists; split; reflexivity|]. cbn. discriminate.
Qed.
Print Assumptions C77_value_refuted.

(* Memory is lost: both threads end, having destroyed their copies, and the
   counter says two although a single variable is left. *)
Theorem C77_leak_refuted :
  exists (shared : list (list nat)) (progs : list (list (op nat))) (sched : list nat) m ts b,
    (forall p, In p progs -> srun (map Some shared) p <> None) /\
    exec sched (start shared progs) = Ok (m, ts) /\ Forall finished ts /\
    Forall (fun t => th_vars t = [Some (0, 0); None]) ts /\
    block_at m (0, 0) = Ok b /\ brefs b = 2%Z.
Proof.
  exists [[7; 8]], [[OCopy 0; ODestroy 1]; [OCopy 0; ODestroy 1]],
    [0; 0; 0; 0; 1; 1; 1; 1; 0; 0; 1; 1; 0; 1; 0; 1].
  eexists; eexists; eexists.
  split; [intros p [<-|[<-|[]]]; vm_compute; discriminate|].
  split; [vm_compute; reflexivity|]. split; [repeat constructor|].
  split; [repeat constructor|]. split; reflexivity.
Qed.
Print Assumptions C77_leak_refuted.

(* What holds: the threads may read elements and sizes of the same vectors, by
   const reference, while each does anything with vectors of its own.  Then
   under every schedule nothing goes wrong, the shared vectors stay as they
   were, every thread observes, step by step, what its program observes on
   values, and when it ends its variables hold the values they should and no
   memory of the thread is left without a variable. *)
Theorem C77_reading_partial :
  forall (A : Type) (shared : list (list A)) (progs : list (list (op A))),
    Forall (Forall (reads_only (length shared))) progs ->
    (forall p, In p progs -> srun (map Some shared) p <> None) ->
    forall sched, exists m ts, exec sched (start shared progs) = Ok (m, ts) /\
      nth_error m 0 = Some (map (fun l => Some (mkB l 1)) shared) /\ length ts = length progs /\
      forall i p tf xs, nth_error progs i = Some p -> srun (map Some shared) p = Some (tf, xs) ->
        exists t, nth_error ts i = Some t /\ (exists ys, xs = th_obs t ++ ys) /\
          (finished t -> th_obs t = xs /\
             map (fun v => match v with
                           | Some a => match block_at m a with Ok b => Some (bdata b) | _ => None end
                           | None => None end) (th_vars t) = tf /\
             forall k b, block_at m (S i, k) = Ok b -> In (Some (S i, k)) (th_vars t)).
Proof. exact @c77_private. Qed.
Print Assumptions C77_reading_partial.

(* ... and all threads end once each has had enough turns *)
Theorem C77_ends_partial :
  forall (A : Type) (shared : list (list A)) (progs : list (list (op A))),
    Forall (Forall (reads_only (length shared))) progs ->
    (forall p, In p progs -> srun (map Some shared) p <> None) ->
    exists N, forall sched, (forall i, i < length progs -> N <= turns i sched) ->
      exists m ts, exec sched (start shared progs) = Ok (m, ts) /\ Forall finished ts.
Proof. exact @c77_ends. Qed.
Print Assumptions C77_ends_partial.

(* two threads that read the same vector and share data among their own *)
Example C77_nonvacuous :
  let shared := [[7; 8]; [9]] in
  let p1 := [ORead 0 1; ONew [1; 2]; OCopy 2; OWrite 3 0 5; ORead 2 0; OAssign 2 3; ODestroy 3; OSize 1] in
  let p2 := [ORead 0 1; ODefault; OResize 2 [4]; ORead 2 0] in
  Forall (Forall (reads_only (length shared))) [p1; p2] /\
  srun (map Some shared) p1 = Some ([Some [7; 8]; Some [9]; Some [5; 2]; None],
    [OVal 8; ONone; ONone; ONone; OVal 1; ONone; ONone; ONum 1]) /\
  srun (map Some shared) p2 = Some ([Some [7; 8]; Some [9]; Some [4]], [OVal 8; ONone; ONone; OVal 4]).
Proof. split; [|split; reflexivity]. repeat constructor. Qed.
