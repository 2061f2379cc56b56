(* Model of the datasets of jobs, src/tools/jobs_dataset.cc: any number of
   processes, each running one job and writing its record into the directory of
   the dataset, with their system calls interleaved in any way, and killed at any
   point.  A record is written with SDF_PARANOID: src/sdf/data_file.cc:79-128,
   odata_file.cc:98-121, rename_file.cc:25-40.
   All files can be read and written; nothing but these processes touches the
   directory; a write is split into single bytes. *)
From Verif Require Import Base.

(* what the name of the dataset stands for, jobs_dataset.cc:53-67 *)
Inductive entry := Absent | Directory | PlainFile.

Section Dataset.
Context {B : Type}.
(* The directory: [main j] is the inode of the file j, [tmp j] that of j.tmp.
   Their names are those of jobs_dataset.cc:44-48 and data_file.cc:97. *)
Record fs := mkFs { kind : entry; main : nat -> option nat; tmp : nat -> option nat; contents : nat -> list B; next : nat }.
(* one entry of the directory changes, e.g. in rename_file.cc:39 *)
Definition put {V} (f : nat -> V) (i : nat) (v : V) : nat -> V := fun j => if j =? i then v else f j.
(* access() == 0, file_exists.cc:32-35 *)
Definition exists_ (o : option nat) : bool := match o with Some _ => true | None => false end.

(* where a process is: before each system call *)
Inductive pc :=
| NotStarted
| CheckDir                (* access(filename), jobs_dataset.cc:53 *)
| IsDir                   (* stat(filename), jobs_dataset.cc:54 *)
| MkDir                   (* mkdir(filename), jobs_dataset.cc:62 *)
| RecheckDir              (* access(filename), jobs_dataset.cc:63 *)
| CheckRecord             (* access(record), jobs_dataset.cc:70 *)
| DeleteTmp               (* unlink(record.tmp), data_file.cc:98 *)
| CheckTmp                (* access(record.tmp), odata_file.cc:101 *)
| OpenTmp (existed : bool)(* open(record.tmp, O_APPEND|O_CREAT), odata_file.cc:102 *)
| Writing (i : nat) (rest : list B) (* write_header, if new, odata_file.cc:103-105, and the dumps of the job *)
| CloseCheck              (* access(record.tmp), data_file.cc:123 *)
| RenameCheckDest         (* access(record), rename_file.cc:27 *)
| RenameDelete            (* unlink(record), rename_file.cc:28 *)
| RenameCheckOrig         (* access(record.tmp), rename_file.cc:34 *)
| Rename                  (* rename(record.tmp, record), rename_file.cc:39 *)
| Written                 (* the job has ended after closing its file *)
| Skipped                 (* the record existed: open_dataset has returned null *)
| Aborted
| Dead.

(* the header of a file, and for each process its job and what it dumps *)
Context (header : list B) (job : nat -> nat) (result : nat -> list B).

(* the next system call of process p,
   in jobs_dataset.cc:50-78, data_file.cc:87-127, odata_file.cc:98-121, rename_file.cc:25-40 *)
Definition advance (p : nat) (d : fs) (c : pc) : option (fs * pc) :=
  let j := job p in
  match c with
  | CheckDir => Some (d, match kind d with Absent => MkDir | _ => IsDir end)
  | IsDir => Some (d, match kind d with Directory => CheckRecord | _ => Aborted end)
  | MkDir => Some (match kind d with Absent => mkFs Directory (main d) (tmp d) (contents d) (next d) | _ => d end, RecheckDir)
  | RecheckDir => Some (d, match kind d with Absent => Aborted | _ => CheckRecord end)
  | CheckRecord => Some (d, if exists_ (main d j) then Skipped else DeleteTmp)
  | DeleteTmp => Some (mkFs (kind d) (main d) (put (tmp d) j None) (contents d) (next d), CheckTmp)
  | CheckTmp => Some (d, OpenTmp (exists_ (tmp d j)))
  | OpenTmp existed =>
    let out := if existed then result p else header ++ result p in
    match tmp d j with
    | Some i => Some (d, Writing i out)
    | None => Some (mkFs (kind d) (main d) (put (tmp d) j (Some (next d))) (put (contents d) (next d) []) (S (next d)), Writing (next d) out)
    end
  | Writing i (b :: rest) => Some (mkFs (kind d) (main d) (tmp d) (put (contents d) i (contents d i ++ [b])) (next d), Writing i rest)
  | Writing i [] => Some (d, CloseCheck)
  | CloseCheck => Some (d, if exists_ (tmp d j) then RenameCheckDest else Written)
  | RenameCheckDest => Some (d, if exists_ (main d j) then RenameDelete else RenameCheckOrig)
  | RenameDelete => match main d j with
    | Some _ => Some (mkFs (kind d) (put (main d) j None) (tmp d) (contents d) (next d), RenameCheckOrig)
    | None => Some (d, Aborted)
    end
  | RenameCheckOrig => Some (d, if exists_ (tmp d j) then Rename else Aborted)
  | Rename => match tmp d j with
    | Some i => Some (mkFs (kind d) (put (main d) j (Some i)) (put (tmp d) j None) (contents d) (next d), Written)
    | None => Some (d, Written)
    end
  | NotStarted | Written | Skipped | Aborted | Dead => None
  end.

(* the processes that run jobs_dataset.cc:50-78 and their directory *)
Record sys := mkSys { disk : fs; procs : nat -> pc }.
(* in the middle of jobs_dataset.cc:50-78 or of writing the record *)
Definition live (c : pc) : Prop := match c with NotStarted | Written | Skipped | Aborted | Dead => False | _ => True end.

(* a process starts, makes one call of jobs_dataset.cc:50-78 and what it calls, or is killed *)
Inductive step (may_start : sys -> nat -> Prop) : sys -> sys -> Prop :=
| s_start s p : procs s p = NotStarted -> may_start s p -> step may_start s (mkSys (disk s) (put (procs s) p CheckDir))
| s_call s p d c : advance p (disk s) (procs s p) = Some (d, c) -> step may_start s (mkSys d (put (procs s) p c))
| s_kill s p : live (procs s p) -> step may_start s (mkSys (disk s) (put (procs s) p Dead)).
(* any history of processes that run jobs_dataset.cc:50-78 *)
Inductive star (R : sys -> sys -> Prop) : sys -> sys -> Prop :=
| star_refl s : star R s s
| star_step s s' s'' : star R s s' -> R s' s'' -> star R s s''.

(* any process may start at any time, that is, call jobs_dataset.cc:51 *)
Definition anytime (s : sys) (p : nat) : Prop := True.
(* a process may start if no other is running the same job,
   that is, calling jobs_dataset.cc:51 with the same current_job() *)
Definition one_per_job (s : sys) (p : nat) : Prop := forall q, job q = job p -> ~ live (procs s q).

(* nobody has called jobs_dataset.cc:51 yet *)
Definition start_with (k : entry) : sys := mkSys (mkFs k (fun _ => None) (fun _ => None) (fun _ => []) 0) (fun _ => NotStarted).

(* dataset_record_exists, jobs_dataset.cc:80-84 *)
Definition dataset_record_exists (s : sys) (j : nat) : bool := exists_ (main (disk s) j).
(* what a reader finds in record j, the file named in jobs_dataset.cc:47 *)
Definition record (s : sys) (j : nat) : option (list B) := option_map (contents (disk s)) (main (disk s) j).
End Dataset.
