(* Model of threads that take a mutex of the program around every call on
   vectors.  The library has no lock of its own; the calls are those of
   include/tensor/vector.h:41-65, modelled in M_Threads access by access. *)
From Verif Require Import Base M_RefCount M_Threads.

(* the thread is in the middle of a call of vector.h:41-65, and holds the mutex *)
Definition inside {A} (t : thread A) : bool := match th_cur t with Some _ => true | None => false end.

(* the threads other than i, which run vector.h:41-65 *)
Definition others {A} (i : nat) (ts : list (thread A)) : list (thread A) := firstn i ts ++ skipn (S i) ts.

(* thread i is given the processor: if another thread holds the mutex it waits,
   before the call of vector.h:41-65 *)
Definition turn_locked {A} (i : nat) (c : config A) : outcome (config A) :=
  if existsb inside (others i (snd c)) then Ok c else turn i c.

(* a schedule, as in M_Threads.exec, of threads that run vector.h:41-65 *)
Fixpoint exec_locked {A} (sched : list nat) (c : config A) : outcome (config A) :=
  match sched with
  | [] => Ok c
  | i :: rest => c' <- turn_locked i c ;; exec_locked rest c'
  end.
