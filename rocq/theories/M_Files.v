(* Model of src/sdf/{file_exists,delete_file,rename_file,isdir,make_directory}.cc over
   POSIX calls by one process that is not root, in one directory that it may
   search.  A function returns or ends in Abort, with the files as it leaves them. *)
From Verif Require Import Base S_Files.

(* one entry changes, as by unlink in delete_file.cc:32 *)
Definition set_node (s : files) (f : nat) (x : option node) : files :=
  mkFiles (fun n => if n =? f then x else node_at s n) (dir_writable s).
(* access(filename, R_OK | W_OK) == 0, file_exists.cc:32-35 *)
Definition file_exists (s : files) (f : nat) : bool :=
  match node_at s f with Some x => readable_by x && writable_by x | None => false end.
(* unlink(filename) == 0, delete_file.cc:30-33; not a directory *)
Definition delete_file (s : files) (f : nat) : bool * files :=
  match node_at s f with
  | Some x => match kind_of x with Dir => (false, s) | _ => if dir_writable s then (true, set_node s f None) else (false, s) end
  | None => (false, s)
  end.
(* rename(2), called by rename_file.cc:39.  Simplification: a directory does not
   replace an empty directory. *)
Definition rename (s : files) (a b : nat) : bool * files :=
  match node_at s a with
  | None => (false, s)
  | Some x =>
    if a =? b then (true, s)
    else if negb (dir_writable s) then (false, s)
    else match node_at s b with
      | Some y => match kind_of x, kind_of y with Dir, _ | _, Dir => (false, s) | _, _ => (true, set_node (set_node s a None) b (Some x)) end
      | None => (true, set_node (set_node s a None) b (Some x))
      end
  end.
(* rename_file, rename_file.cc:25-40; !overwrite || !delete_file(dest) does not
   delete when the first is true *)
Definition rename_file (s : files) (orig dest : nat) (overwrite : bool) : outcome bool * files :=
  let '(refused, s) :=
    if file_exists s dest then if negb overwrite then (true, s) else let '(ok, s) := delete_file s dest in (negb ok, s)
    else (false, s) in
  if refused : bool then (Abort, s)
  else if negb (file_exists s orig) then (Abort, s)
  else let '(ok, s) := rename s orig dest in (Ok ok, s).

(* st_mode & S_IFMT of the types of stat(2), used in isdir.cc:29-31 *)
Definition type_bits (t : ftype) : Z :=
  match t with Fifo => 4096 | CharDev => 8192 | Dir => 16384 | BlockDev => 24576 | Regular => 32768 | Socket => 49152 end%Z.
(* S_IFDIR, isdir.cc:31 *)
Definition S_IFDIR : Z := 16384%Z.
(* isdir, isdir.cc:25-32; [perm] are the other twelve bits of st_mode *)
Definition isdir (s : files) (perm : nat -> Z) (f : nat) : bool :=
  match node_at s f with
  | None => false
  | Some x => negb (Z.land (type_bits (kind_of x) + perm f) S_IFDIR =? 0)%Z
  end.
(* make_directory, make_directory.cc:30-34, with the mode 0777 and an umask that
   leaves the rights of the owner; it also prints the name *)
Definition make_directory (s : files) (f : nat) : bool * files :=
  match node_at s f with
  | Some _ => (false, s)
  | None => if dir_writable s then (true, set_node s f (Some (mkNode Dir true true []))) else (false, s)
  end.
