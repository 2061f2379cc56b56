(* Model of the lock files of SDF_SHARED, src/sdf/data_file.cc:42-77, 79-85,
   111-119: any number of processes, each opening and closing the same data file
   again and again, with their system calls interleaved in any way.
   ENOTSUP and descriptor 0 are not modelled here but in M_GetLock; Windows is not. *)
From Verif Require Import Base.

(* where a process is, in get_lock and giveup_lock, data_file.cc:42-77 *)
Inductive pc :=
| Idle                     (* has not the file open *)
| Opened (i : nat)         (* after open(lockName, O_CREAT), line 49: i is the inode *)
| Refused (i : nat)        (* flock failed, before close, line 57 *)
| Holding (i : nat)        (* get_lock has returned: the data file is open *)
| Unlinked (i : nat).      (* close() has closed the data file and unlinked lockName, line 74 *)

(* the directory entry of lockName, the next inode number, the process that has
   flock on an inode, the processes, what data_file.cc:42-77 acts upon *)
Record sys := mkSys { name : option nat; next : nat; flocked : nat -> option nat; procs : nat -> pc }.
(* one entry of such a table changes, e.g. by flock in data_file.cc:51 *)
Definition put {B} (f : nat -> B) (i : nat) (v : B) : nat -> B := fun j => if j =? i then v else f j.
(* before any process has run data_file.cc:79-85 *)
Definition init : sys := mkSys None 0 (fun _ => None) (fun _ => Idle).

(* a process moves on in data_file.cc:42-77 *)
Definition go (s : sys) (p : nat) (c : pc) : sys := mkSys (name s) (next s) (flocked s) (put (procs s) p c).

(* open(lockName, O_RDWR|O_CREAT), data_file.cc:49 *)
Inductive open_step (p : nat) : sys -> sys -> Prop :=
| open_existing s i : procs s p = Idle -> name s = Some i -> open_step p s (go s p (Opened i))
| open_create s : procs s p = Idle -> name s = None ->
    open_step p s (mkSys (Some (next s)) (S (next s)) (flocked s) (put (procs s) p (Opened (next s)))).
(* flock(fd, LOCK_EX | LOCK_NB), data_file.cc:51 *)
Inductive flock_step (p : nat) : sys -> sys -> Prop :=
| flock_ok s i : procs s p = Opened i -> flocked s i = None ->
    flock_step p s (mkSys (name s) (next s) (put (flocked s) i (Some p)) (put (procs s) p (Holding i)))
| flock_busy s i q : procs s p = Opened i -> flocked s i = Some q -> flock_step p s (go s p (Refused i)).
(* close(fd), data_file.cc:57; then sleep and try again *)
Inductive retry_step (p : nat) : sys -> sys -> Prop :=
| retry s i : procs s p = Refused i -> retry_step p s (go s p Idle).
(* unlink(lockName), data_file.cc:74 *)
Inductive unlink_step (p : nat) : sys -> sys -> Prop :=
| do_unlink s i : procs s p = Holding i ->
    unlink_step p s (mkSys None (next s) (flocked s) (put (procs s) p (Unlinked i))).
(* close(fd), data_file.cc:75: releases the flock *)
Inductive close_step (p : nat) : sys -> sys -> Prop :=
| do_close s i : procs s p = Unlinked i ->
    close_step p s (mkSys (name s) (next s) (put (flocked s) i None) (put (procs s) p Idle)).
(* the process is killed: the kernel closes its descriptor, anywhere in data_file.cc:42-127 *)
Inductive die_step (p : nat) : sys -> sys -> Prop :=
| die s : die_step p s (mkSys (name s) (next s)
    (fun i => match flocked s i with Some q => if q =? p then None else Some q | None => None end) (put (procs s) p Idle)).

(* one system call of one process, data_file.cc:42-77 *)
Inductive step : sys -> sys -> Prop :=
| s_open p s s' : open_step p s s' -> step s s'
| s_flock p s s' : flock_step p s s' -> step s s'
| s_retry p s s' : retry_step p s s' -> step s s'
| s_unlink p s s' : unlink_step p s s' -> step s s'
| s_close p s s' : close_step p s s' -> step s s'
| s_die p s s' : die_step p s s' -> step s s'.

(* any history of calls of data_file.cc:42-77 *)
Inductive star (R : sys -> sys -> Prop) : sys -> sys -> Prop :=
| star_refl s : star R s s
| star_step s s' s'' : star R s s' -> R s' s'' -> star R s s''.

(* all but unlink: histories in which nobody has closed the file yet,
   nobody is past data_file.cc:74 *)
Inductive step_before_release : sys -> sys -> Prop :=
| b_open p s s' : open_step p s s' -> step_before_release s s'
| b_flock p s s' : flock_step p s s' -> step_before_release s s'
| b_retry p s s' : retry_step p s s' -> step_before_release s s'
| b_die p s s' : die_step p s s' -> step_before_release s s'.

(* open and flock of a process not separated by calls of others, data_file.cc:49 and 51 as one *)
Inductive atomic_step : sys -> sys -> Prop :=
| a_acquire p s s1 s' : open_step p s s1 -> flock_step p s1 s' -> atomic_step s s'
| a_retry p s s' : retry_step p s s' -> atomic_step s s'
| a_unlink p s s' : unlink_step p s s' -> atomic_step s s'
| a_close p s s' : close_step p s s' -> atomic_step s s'
| a_die p s s' : die_step p s s' -> atomic_step s s'.

(* process p has the data file open, its constructor, data_file.cc:79-104, has returned *)
Definition has_open (s : sys) (p : nat) : Prop := exists i, procs s p = Holding i.
