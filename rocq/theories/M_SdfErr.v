(* Model of writing SDF files when the system reports errors,
   src/sdf/odata_file.cc, data_file.cc, over the state of std::ofstream.  The
   chunks written are those of M_Sdf; what the constructor and close() do to the
   files is taken from there as well. *)
From Verif Require Import Base Spec S_Sdf M_Sdf.
Local Open Scope Z_scope.

(* What becomes of one call of write_raw_with_endian: the bytes reach the file,
   or std::ofstream::write fails after n of them (a chunk larger than the buffer
   of the stream is written at once), or they are buffered and it is flush() that
   fails after n of them, and drops k of them from the buffer: libstdc++ drops
   none, so that close() writes again some that did reach the file.
   write_raw_with_endian, odata_file.cc:26-37 *)
Inductive fault := NoFault | AtWrite (n : nat) | AtFlush (n k : nat).

(* The files and the stream: failbit without badbit, as when the file cannot be
   opened; badbit; the bytes left in its buffer; the calls of write_raw so far,
   the _stream of sdf.h:101 *)
Record ostream := mkO { ofs : fs; ofail : bool; obad : bool; obuffer : list Z; ocalls : nat }.

Section Errors.
(* whether open(2) succeeds; the errors of each call; how many of the bytes left
   in the buffer get written in the end by close() *)
Context (can_open : bool) (faults : nat -> fault) (at_close : nat).

(* bytes that reach the end of a file, by write, flush or close, odata_file.cc:29, 36, 117-118 *)
Definition grow (w : which) (bs : list Z) (s : fs) : fs :=
  set_file w (Some ((match file w s with Some c => c | None => [] end) ++ bs)) s.

(* write_raw_with_endian, odata_file.cc:26-37.  write() does nothing when the
   stream has failed, and sets no badbit then; bad() is asked between write()
   and flush(). *)
Definition write_raw (w : which) (c : chunk) (st : ostream) : outcome unit * ostream :=
  if obad st then (Abort, st)
  else if ofail st then (Ok tt, mkO (ofs st) true false (obuffer st) (S (ocalls st)))
  else match faults (ocalls st) with
  | NoFault => (Ok tt, mkO (grow w c (ofs st)) false false [] (S (ocalls st)))
  | AtWrite n => (Abort, mkO (grow w (firstn n c) (ofs st)) false true [] (S (ocalls st)))
  | AtFlush n k => (Ok tt, mkO (grow w (firstn n c) (ofs st)) false true (skipn k c) (S (ocalls st)))
  end.
(* the calls made by write_header and dump, odata_file.cc:165-264 *)
Fixpoint write_seq (w : which) (l : list chunk) (st : ostream) : outcome unit * ostream :=
  match l with
  | [] => (Ok tt, st)
  | c :: l =>
    let '(o, st) := write_raw w c st in
    match o with Ok _ => write_seq w l st | _ => (o, st) end
  end.
(* calls of dump, odata_file.cc:189-253, one after another *)
Fixpoint dump_seq (w : which) (rs : list (list Z * value)) (st : ostream) : outcome unit * ostream :=
  match rs with
  | [] => (Ok tt, st)
  | r :: rs =>
    let '(o, st) := write_seq w (dump (snd r) (fst r)) st in
    match o with Ok _ => dump_seq w rs st | _ => (o, st) end
  end.

(* { OutDataFile f(name, m); f.dump(...); ... }: the constructor and close(),
   odata_file.cc:98-121, data_file.cc:79-127.  The result has the files at the
   end; after Abort the process is dead. *)
Definition session_err (m : mode) (rs : list (list Z * value)) (s : fs) : outcome unit * fs :=
  let w := actual m in
  let '(o, s, _) := datafile m s in
  match o with
  | Ok _ =>
    let existed := match file w s with Some _ => true | None => false end in
    let st := if can_open then mkO (grow w [] s) false false [] 0 else mkO s true false [] 0 in
    let '(o, st) := if existed : bool then (Ok tt, st) else write_seq w write_header st in
    match o with
    | Ok _ =>
      let '(o, st) := dump_seq w rs st in
      match o with
      | Ok _ =>
        let s := if ofail st then ofs st else grow w (firstn at_close (obuffer st)) (ofs st) in
        let '(o, s, _) := datafile_close m s in (o, s)
      | _ => (o, ofs st)
      end
    | _ => (o, ofs st)
    end
  | _ => (o, s)
  end.
End Errors.
