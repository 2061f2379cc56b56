(* Model of one process that opens and closes a data file in SDF_SHARED mode:
   the loop of get_lock and the calls of giveup_lock, src/sdf/data_file.cc:42-77,
   79-85, 111-121, and the table of file descriptors.  Other processes are an
   arbitrary environment (their interleaving is the subject of M_Lock).
   Windows is not modelled. *)
From Verif Require Import Base.

(* What the rest of the system says to the t-th attempt: may the lock file be
   opened or created (permissions, directory, space), does somebody else have
   the lock, does the file system know flock at all.  data_file.cc:49, 51, 53 *)
Record answer := mkA { creatable : bool; busy : bool; unsupported : bool }.

(* The process: which descriptors are in use (the length of the table is the
   limit of the process), and the descriptor through which it has the lock.
   data_file.cc:49-51 *)
Record proc := mkProc { fds : list bool; held : option nat }.

(* open returns the lowest descriptor that is not in use, data_file.cc:49 *)
Fixpoint lowest_free (l : list bool) : option nat :=
  match l with
  | [] => None
  | false :: _ => Some 0
  | true :: l' => option_map S (lowest_free l')
  end.

(* close(fd), data_file.cc:57 and 75: an flock goes with its descriptor *)
Definition close_fd (w : proc) (fd : nat) : proc :=
  mkProc (upd (fds w) fd false)
         (match held w with Some k => if k =? fd then None else Some k | None => None end).

(* One round of the loop, data_file.cc:48-59.  The answer is fd, -1 being None;
   [inl fd] is the return of line 55.  Two descriptors of the same process that
   were opened separately exclude each other like those of two processes
   (flock(2)). *)
Definition attempt (a : answer) (w : proc) : proc * (nat + option nat) :=
  match (if creatable a then lowest_free (fds w) else None) with
  | None => (w, inr None)
  | Some fd =>
    let w1 := mkProc (upd (fds w) fd true) (held w) in
    if unsupported a then (w1, inl fd)
    else if busy a || match held w with Some _ => true | None => false end
         then (close_fd w1 fd, inr None)
         else (mkProc (fds w1) (Some fd), inr (Some fd))
  end.

Inductive lock_result :=
| Returned (w : proc) (fd : option nat)   (* the value returned, data_file.cc:55, 61 *)
| Trying (w : proc).                      (* still in the loop, data_file.cc:62-63 *)

(* get_lock, data_file.cc:42-65; t numbers the rounds, n is how many we look at *)
Fixpoint get_lock (wait : bool) (env : nat -> answer) (t n : nat) (w : proc) : lock_result :=
  match n with
  | 0 => Trying w
  | S n' =>
    match attempt (env t) w with
    | (w1, inl fd) => Returned w1 (Some fd)
    | (w1, inr r) =>
      if (match r with Some fd => 0 <? fd | None => false end) || negb wait
      then Returned w1 r
      else get_lock wait env (S t) n' w1
    end
  end.

(* _lock of DataFile::DataFile in mode SDF_SHARED, data_file.cc:84 *)
Definition open_shared (env : nat -> answer) (n : nat) (w : proc) : lock_result :=
  get_lock true env 0 n w.

(* DataFile::close in that mode, data_file.cc:117-121, with is_locked(), sdf.h:75,
   and giveup_lock, data_file.cc:69-77.  unlink is not in this model. *)
Definition close_shared (w : proc) (lock : nat) : proc :=
  if lock =? 0 then w else close_fd w lock.
