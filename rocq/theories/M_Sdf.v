(* Model of the SDF files.  src/sdf/odata_file.cc, idata_file.cc, data_file.cc,
   rename_file.cc, include/tensor/sdf.h.
   The platform: little endian, 4-byte int, 8-byte long and size_t, IEEE doubles;
   the branch for AIX is in M_SdfAix.v, that for Windows is not modelled.  I/O errors
   other than the end of the file do not happen. *)
From Verif Require Import Base Spec S_Reduce S_Sdf M_Tensor.
Local Open Scope Z_scope.

(* ---- bytes ---- *)

(* the k bytes of a word in memory,
   as write_raw_with_endian sends it to the file, odata_file.cc:29 *)
Fixpoint le (k : nat) (w : Z) : list Z :=
  match k with O => [] | S k => (w mod 256) :: le k (w / 256) end.
(* the word read_raw_with_endian leaves in memory, idata_file.cc:28 *)
Fixpoint of_le (l : list Z) : Z :=
  match l with [] => 0 | b :: l => b + 256 * of_le l end.
(* two's complement of a long in a file, odata_file.cc:137-142 *)
Definition to_word (x : Z) : Z := x mod 2 ^ 64.
(* reading it as a long, idata_file.cc:108-113 *)
Definition to_signed (w : Z) : Z := if w <? 2 ^ 63 then w else w - 2 ^ 64.

(* the 8-byte words in a buffer, read by idata_file.cc:25-33 *)
Fixpoint words (n : nat) (bs : list Z) : list Z :=
  match n with O => [] | S n => of_le (firstn 8 bs) :: words n (skipn 8 bs) end.
(* the complex numbers in an array of doubles: the cast of
   odata_file.cc:162, and idata_file.cc:133 when reading *)
Fixpoint pairs (l : list Z) : list (Z * Z) :=
  match l with a :: b :: l => (a, b) :: pairs l | _ => [] end.

(* characters up to the first NUL,
   std::string(buffer), idata_file.cc:149, and strncpy, odata_file.cc:170 *)
Fixpoint cstr (l : list Z) : list Z :=
  match l with [] => [] | c :: l => if c =? 0 then [] else c :: cstr l end.

(* ---- doubles with integer values ---- *)

(* the bits of (double)v, for |v| <= 2^64,
   as in dump(size_t) and dump(int), odata_file.cc:243-253 *)
Definition double_bits (v : Z) : Z :=
  let v := round_double v in
  if v =? 0 then 0 else
  let e := Z.log2 (Z.abs v) in
  (if v <? 0 then 2 ^ 63 else 0) + (1023 + e) * 2 ^ 52 + (Z.shiftl (Z.abs v) (52 - e) - 2 ^ 52).
(* The double truncated to an integer, None for infinities and NaN,
   the conversions of load(size_t) and load(int), idata_file.cc:252, 260 *)
Definition double_trunc (w : Z) : option Z :=
  let e := (w / 2 ^ 52) mod 2 ^ 11 in
  let m := w mod 2 ^ 52 in
  if e =? 2047 then None
  else if e =? 0 then Some 0
  else let a := Z.shiftl (2 ^ 52 + m) (e - 1075) in Some (if w <? 2 ^ 63 then a else - a).
(* (int)x, (size_t)x: undefined when the truncated value does not fit, idata_file.cc:252, 260 *)
Definition double_to (lo hi : Z) (w : Z) : outcome Z :=
  match double_trunc w with Some v => if (lo <=? v) && (v <? hi) then Ok v else UB | None => UB end.

(* ---- writing ---- *)

(* Each call of write_raw is one chunk, flushed to the file,
   odata_file.cc:26-37, 123-163 *)
Definition chunk := list Z.
(* write_raw of longs, sizes and doubles, odata_file.cc:137-156 *)
Definition write_words (ws : list Z) : chunk := flat_map (le 8) ws.

(* write_variable_name, odata_file.cc:165-173.  var_name_size = 64 *)
Definition write_variable_name (name : list Z) : list chunk :=
  let copied := cstr (firstn (Nat.min 63 (length name)) name) in
  [copied ++ repeat 0 (64 - length copied)].
(* write_tag, odata_file.cc:175-180 *)
Definition write_tag (name : list Z) (type : Z) : list chunk := write_variable_name name ++ [write_words [to_word type]].
(* dump_vector, odata_file.cc:182-187 *)
Definition dump_vector (n : nat) (ws : list Z) : list chunk := [write_words [Z.of_nat n]; write_words ws].
(* the array of doubles of complex numbers, odata_file.cc:158-163 *)
Definition complex_words (l : list (Z * Z)) : list Z := flat_map (fun c => [fst c; snd c]) l.

(* sdf.h:42 *)
Definition TAG_RTENSOR := 0.
(* sdf.h:43 *)
Definition TAG_CTENSOR := 1.
(* sdf.h:44 *)
Definition TAG_RTENSOR_VECTOR := 2.
(* sdf.h:45 *)
Definition TAG_CTENSOR_VECTOR := 3.

(* dump(RTensor), odata_file.cc:189-195 *)
Definition dump_R (t : stored Z) name : list chunk :=
  write_tag name TAG_RTENSOR ++ dump_vector (length (sdims t)) (map to_word (sdims t)) ++
  dump_vector (length (selts t)) (selts t).
(* dump(CTensor), odata_file.cc:197-203 *)
Definition dump_C (t : stored (Z * Z)) name : list chunk :=
  write_tag name TAG_CTENSOR ++ dump_vector (length (sdims t)) (map to_word (sdims t)) ++
  dump_vector (length (selts t)) (complex_words (selts t)).

(* dump, odata_file.cc:189-253 *)
Definition dump (v : value) (name : list Z) : list chunk :=
  match v with
  | VR t => dump_R t name
  | VC t => dump_C t name
  | VRs l => write_tag name TAG_RTENSOR_VECTOR ++ [write_words [Z.of_nat (length l)]] ++ flat_map (fun t => dump_R t []) l
  | VCs l => write_tag name TAG_CTENSOR_VECTOR ++ [write_words [Z.of_nat (length l)]] ++ flat_map (fun t => dump_C t []) l
  | VDouble w => dump_R (mkST [1] [w]) name
  | VComplex re im => dump_C (mkST [1] [(re, im)]) name
  | VSize v => dump_R (mkST [1] [double_bits v]) name
  | VInt v => dump_R (mkST [1] [double_bits v]) name
  end.

(* write_header, odata_file.cc:255-264: "sdf", sizeof(int), sizeof(long), endian *)
Definition header_name : list Z := [115; 100; 102; 48 + 4; 48 + 8; 48 + 1].
(* write_header, odata_file.cc:255-264 *)
Definition write_header : list chunk := write_variable_name header_name.

(* ---- reading ---- *)

(* The input stream: what is left, whether failbit is set, and how many reads
   were made.  junk k is the content of the memory given to the k-th read.
   The _stream of InDataFile, sdf.h:140 *)
Record rstate := mkRS { rest : list Z; failed : bool; reads : nat }.
Section Read.
Context (junk : nat -> nat -> Z).

(* read_raw_with_endian, idata_file.cc:25-33: at the end of the file only
   eofbit and failbit are set, bad() is false and nothing is reported *)
Definition read_raw (n : nat) (st : rstate) : list Z * rstate :=
  let buf := alloc (junk (reads st)) n in
  if failed st then (buf, mkRS (rest st) true (S (reads st)))
  else if (n <=? length (rest st))%nat then (firstn n (rest st), mkRS (skipn n (rest st)) false (S (reads st)))
  else (rest st ++ skipn (length (rest st)) buf, mkRS [] true (S (reads st))).
(* read_raw of longs, sizes and doubles, idata_file.cc:108-134 *)
Definition read_words (n : nat) (st : rstate) : list Z * rstate :=
  let '(bs, st) := read_raw (8 * n) st in (words n bs, st).
(* read_raw of one number, sdf.h:149-151; read_tag_code, idata_file.cc:136-142 *)
Definition read_word (st : rstate) : Z * rstate :=
  let '(bs, st) := read_raw 8 st in (of_le bs, st).

(* read_variable_name, idata_file.cc:144-152: a buffer without NUL is read past
   its end *)
Definition read_variable_name (st : rstate) : outcome (list Z * rstate) :=
  let '(buf, st) := read_raw 64 st in
  if existsb (fun c => c =? 0) buf then Ok (cstr buf, st) else UB.

(* comparison of std::string, idata_file.cc:158 *)
Fixpoint eqb_string (a b : list Z) : bool :=
  match a, b with
  | [], [] => true
  | x :: a, y :: b => (x =? y) && eqb_string a b
  | _, _ => false
  end.

(* tag_to_name, data_file.cc:129-139: a table of four names, no effective check *)
Definition tag_to_name (tag : Z) : outcome unit :=
  if (0 <=? tag) && (tag <? 4) then Ok tt else UB.

(* read_tag, idata_file.cc:154-171 *)
Definition read_tag (name : list Z) (type : Z) (st : rstate) : outcome rstate :=
  '(other_name, st) <- read_variable_name st ;;
  if negb (length name =? 0)%nat && negb (eqb_string name other_name) then Abort else
  let '(other_type, st) := read_word st in
  let other_type := to_signed other_type in
  if negb (type =? other_type) then
    _ <- tag_to_name type ;; _ <- tag_to_name other_type ;; Abort
  else Ok st.

(* Vector v(length): operator new[] throws when the bytes do not fit in the
   address space; memory is otherwise not limited. As in load_vector, idata_file.cc:178 *)
Definition new_vector (length : Z) : outcome nat :=
  if length <? 2 ^ 59 then Ok (Z.to_nat length) else Abort.

(* load_vector, idata_file.cc:173-181 *)
Definition load_indices (st : rstate) : outcome (list Z * rstate) :=
  let '(length, st) := read_word st in
  n <- new_vector length ;;
  let '(ws, st) := read_words n st in Ok (map to_signed ws, st).
(* load_vector<RTensor>, idata_file.cc:173-181 *)
Definition load_reals (st : rstate) : outcome (list Z * rstate) :=
  let '(length, st) := read_word st in
  n <- new_vector length ;;
  let '(ws, st) := read_words n st in Ok (ws, st).
(* load_vector<CTensor>, idata_file.cc:173-181 *)
Definition load_complex (st : rstate) : outcome (list (Z * Z) * rstate) :=
  let '(length, st) := read_word st in
  n <- new_vector length ;;
  let '(ws, st) := read_words (2 * n) st in Ok (pairs ws, st).

(* load(RTensor), load(CTensor), idata_file.cc:183-195, with the check of the
   constructor, tensor_base.hpp:46-51 *)
Definition load_R name st : outcome (stored Z * rstate) :=
  st <- read_tag name TAG_RTENSOR st ;;
  '(dims, st) <- load_indices st ;;
  '(v, st) <- load_reals st ;;
  _ <- assert_ (total_sizeZ dims =? Z.of_nat (length v)) ;;
  Ok (mkST dims v, st).
(* load(CTensor), idata_file.cc:190-195 *)
Definition load_C name st : outcome (stored (Z * Z) * rstate) :=
  st <- read_tag name TAG_CTENSOR st ;;
  '(dims, st) <- load_indices st ;;
  '(v, st) <- load_complex st ;;
  _ <- assert_ (total_sizeZ dims =? Z.of_nat (length v)) ;;
  Ok (mkST dims v, st).

(* the loops of load(std::vector), idata_file.cc:204-206, 216-218 *)
Fixpoint load_many {T} (load1 : rstate -> outcome (T * rstate)) (n : nat) (st : rstate) : outcome (list T * rstate) :=
  match n with
  | O => Ok ([], st)
  | S n => '(t, st) <- load1 st ;; '(l, st) <- load_many load1 n st ;; Ok (t :: l, st)
  end.
(* load(std::vector), idata_file.cc:197-219; m->resize(l) throws beyond
   vector::max_size *)
Definition load_vec {T} (load1 : list Z -> rstate -> outcome (T * rstate)) type name st : outcome (list T * rstate) :=
  st <- read_tag name type st ;;
  let '(l, st) := read_word st in
  if 2 ^ 56 <=? l then Abort else load_many (load1 []) (Z.to_nat l) st.

(* load(double), load(cdouble), idata_file.cc:221-245 *)
Definition load_double name st : outcome (Z * rstate) :=
  '(t, st) <- load_R name st ;;
  if (1 <? length (selts t))%nat then Abort else x <- rd (selts t) 0 ;; Ok (x, st).
(* load(cdouble), idata_file.cc:234-245 *)
Definition load_cdouble name st : outcome ((Z * Z) * rstate) :=
  '(t, st) <- load_C name st ;;
  if (1 <? length (selts t))%nat then Abort else x <- rd (selts t) 0 ;; Ok (x, st).

(* load, idata_file.cc:183-261 *)
Definition load (k : kind) (name : list Z) (st : rstate) : outcome (value * rstate) :=
  match k with
  | KR => '(t, st) <- load_R name st ;; Ok (VR t, st)
  | KC => '(t, st) <- load_C name st ;; Ok (VC t, st)
  | KRs => '(l, st) <- load_vec load_R TAG_RTENSOR_VECTOR name st ;; Ok (VRs l, st)
  | KCs => '(l, st) <- load_vec load_C TAG_CTENSOR_VECTOR name st ;; Ok (VCs l, st)
  | KDouble => '(w, st) <- load_double name st ;; Ok (VDouble w, st)
  | KComplex => '(c, st) <- load_cdouble name st ;; Ok (VComplex (fst c) (snd c), st)
  | KSize => '(w, st) <- load_double name st ;; v <- double_to 0 (2 ^ 64) w ;; Ok (VSize v, st)
  | KInt => '(w, st) <- load_double name st ;; v <- double_to (- 2 ^ 31) (2 ^ 31) w ;; Ok (VInt v, st)
  end.

(* std::string::operator[]: the position size() holds NUL, beyond is undefined.
   As in read_header, idata_file.cc:268-275 *)
Definition char_at (s : list Z) (i : nat) : outcome Z :=
  if (i =? length s)%nat then Ok 0 else rd s i.

(* read_header, idata_file.cc:263-284.  char is signed: only differences from
   the expected characters matter. *)
Definition read_header (st : rstate) : outcome rstate :=
  '(s, st) <- read_variable_name st ;;
  c0 <- char_at s 0 ;; if negb (c0 =? 115) then Abort else
  c1 <- char_at s 1 ;; if negb (c1 =? 100) then Abort else
  c2 <- char_at s 2 ;; if negb (c2 =? 102) then Abort else
  c3 <- char_at s 3 ;; c4 <- char_at s 4 ;; c5 <- char_at s 5 ;;
  if negb (c3 - 48 =? 4) || negb (c4 - 48 =? 8) || negb (c5 - 48 =? 1) then Abort else Ok st.

(* a program that loads variables of these kinds under these names, in order.
   Calls of load, sdf.h:127-134 *)
Fixpoint load_all (l : list (kind * list Z)) (st : rstate) : outcome (list value * rstate) :=
  match l with
  | [] => Ok ([], st)
  | (k, name) :: l => '(v, st) <- load k name st ;; '(vs, st) <- load_all l st ;; Ok (v :: vs, st)
  end.
End Read.

(* ---- files ---- *)

(* The two files a session touches: the named one and, in paranoid mode, the
   temporary one.  Files that exist can be read and written (access()).
   The names are _filename and _actual_filename, data_file.cc:79-104 *)
Inductive which := Main | Tmp.
(* the contents of both files, data_file.cc:79-104 *)
Record fs := mkFS { main : option (list Z); tmp : option (list Z) }.
(* file_exists asks for one of them, file_exists.cc:32-35 *)
Definition file (w : which) (s : fs) : option (list Z) := match w with Main => main s | Tmp => tmp s end.
(* the effect of open, write, unlink and rename on one of them, data_file.cc:79-127 *)
Definition set_file (w : which) (c : option (list Z)) (s : fs) : fs :=
  match w with Main => mkFS c (tmp s) | Tmp => mkFS (main s) c end.

(* A running process: its result, the files, and all the states of the files
   along the way, in which the process could be killed.
   It is any function of odata_file.cc:98-264 and data_file.cc:79-127. *)
Definition prog (T : Type) := fs -> outcome T * fs * list fs.
(* return, e.g. data_file.cc:95 *)
Definition ret {T} (x : T) : prog T := fun s => (Ok x, s, []).
(* abort(), e.g. data_file.cc:91 *)
Definition fails {T} : prog T := fun s => (Abort, s, []).
(* one statement after another, e.g. data_file.cc:114-126 *)
Definition seqp {T U} (p : prog T) (q : T -> prog U) : prog U := fun s =>
  let '(o, s, tr) := p s in
  match o with
  | Ok x => let '(o', s, tr') := q x s in (o', s, tr ++ tr')
  | Abort => (Abort, s, tr) | UB => (UB, s, tr) | Hang => (Hang, s, tr)
  end.
Notation "x <~ e ;;; k" := (seqp e (fun x => k)) (at level 61, e at next level, right associativity).

(* file_exists.cc:32-35, delete_file.cc:30-33, rename(2), open(2) for appending *)
Definition file_exists (w : which) : prog bool := fun s =>
  (Ok (match file w s with Some _ => true | None => false end), s, [s]).
(* delete_file.cc:30-33 *)
Definition delete_file (w : which) : prog bool := fun s =>
  let s' := set_file w None s in
  (Ok (match file w s with Some _ => true | None => false end), s', [s']).
(* rename(2) in rename_file.cc:39 *)
Definition sys_rename (a b : which) : prog unit := fun s =>
  let s' := set_file a None (set_file b (file a s) s) in (Ok tt, s', [s']).
(* _stream.open, odata_file.cc:102 *)
Definition open_append (w : which) : prog unit := fun s =>
  let s' := set_file w (Some (match file w s with Some c => c | None => [] end)) s in (Ok tt, s', [s']).
(* the bytes of a chunk may reach the file one by one in write and flush, odata_file.cc:26-37 *)
Definition append (w : which) (c : chunk) : prog unit := fun s =>
  let old := match file w s with Some c => c | None => [] end in
  let st k := set_file w (Some (old ++ firstn k c)) s in
  (Ok tt, st (length c), map st (seq 0 (S (length c)))).

(* rename_file with overwrite, rename_file.cc:25-40 *)
Definition rename_file (a b : which) : prog unit :=
  e <~ file_exists b ;;;
  _ <~ (if e : bool then d <~ delete_file b ;;; if d : bool then ret tt else fails else ret tt) ;;;
  e <~ file_exists a ;;;
  if e : bool then sys_rename a b else fails.

(* The flags, sdf.h:53-57 *)
Inductive mode := Shared | Overwrite | Paranoid.
(* _actual_filename, data_file.cc:97 *)
Definition actual (m : mode) : which := match m with Paranoid => Tmp | _ => Main end.

(* DataFile::DataFile, data_file.cc:79-104, without the lock (see M_Lock) *)
Definition datafile (m : mode) : prog unit :=
  match m with
  | Overwrite =>
    e <~ file_exists Main ;;;
    if e : bool then d <~ delete_file Main ;;; if d : bool then ret tt else fails else ret tt
  | Shared => ret tt
  | Paranoid => _ <~ delete_file Tmp ;;; ret tt
  end.
(* DataFile::close, data_file.cc:111-127 *)
Definition datafile_close (m : mode) : prog unit :=
  match m with
  | Paranoid => e <~ file_exists Tmp ;;; if e : bool then rename_file Tmp Main else ret tt
  | _ => ret tt
  end.

(* An OutDataFile: its mode and _open, sdf.h:64-66 *)
Record ofile := mkOF { omode : mode; oopen : bool }.
(* calls of write_raw one after another, e.g. odata_file.cc:175-187 *)
Fixpoint write_all (w : which) (l : list chunk) : prog unit :=
  match l with [] => ret tt | c :: l => _ <~ append w c ;;; write_all w l end.
(* OutDataFile::write_raw asserts is_open(), odata_file.cc:123-163 *)
Definition emit (f : ofile) (l : list chunk) : prog unit :=
  if oopen f then write_all (actual (omode f)) l else fails.
(* OutDataFile::OutDataFile, odata_file.cc:98-106 *)
Definition open_out (m : mode) : prog ofile :=
  _ <~ datafile m ;;;
  existed <~ file_exists (actual m) ;;;
  _ <~ open_append (actual m) ;;;
  let f := mkOF m true in
  _ <~ (if existed : bool then ret tt else emit f write_header) ;;;
  ret f.
(* OutDataFile::close, odata_file.cc:113-121; the destructor calls it *)
Definition close_out (f : ofile) : prog ofile :=
  if oopen f then _ <~ datafile_close (omode f) ;;; ret (mkOF (omode f) false) else ret f.
(* dump on an OutDataFile, odata_file.cc:189-253 *)
Definition dump_to (f : ofile) (r : list Z * value) : prog unit := emit f (dump (snd r) (fst r)).
(* a program that dumps several values, odata_file.cc:189-253 *)
Fixpoint dump_all (f : ofile) (rs : list (list Z * value)) : prog unit :=
  match rs with [] => ret tt | r :: rs => _ <~ dump_to f r ;;; dump_all f rs end.

(* { OutDataFile f(name, m); f.dump(...); ... }
   The destructor closes the file, odata_file.cc:98-121. *)
Definition session (m : mode) (rs : list (list Z * value)) : prog unit :=
  f <~ open_out m ;;; _ <~ dump_all f rs ;;; _ <~ close_out f ;;; ret tt.
(* a program, or several, that opens the file again and again, odata_file.cc:98-121 *)
Fixpoint sessions (m : mode) (l : list (list (list Z * value))) : prog unit :=
  match l with [] => ret tt | rs :: l => _ <~ session m rs ;;; sessions m l end.

(* InDataFile::InDataFile, idata_file.cc:85-92: a file that cannot be opened
   leaves the stream failed *)
Definition open_in (junk : nat -> nat -> Z) (m : mode) : prog rstate :=
  _ <~ datafile m ;;;
  fun s =>
    let st := match file (actual m) s with Some c => mkRS c false 0 | None => mkRS [] true 0 end in
    (read_header junk st, s, [s]).

(* the file a session leaves if nothing goes wrong. It starts from no file, odata_file.cc:98-121. *)
Definition complete_file (rs : list (list Z * value)) : option (list Z) :=
  main (snd (fst (session Overwrite rs (mkFS None None)))).
(* c is left by a history of paranoid sessions of one file, each of them killed
   at some point. It may be killed anywhere in odata_file.cc:98-264 and data_file.cc:79-127. *)
Inductive crashed : fs -> list (list (list Z * value)) -> fs -> Prop :=
| crashed_none s : crashed s [] s
| crashed_once s l c rs c' : crashed s l c -> In c' (snd (session Paranoid rs c)) -> crashed s (l ++ [rs]) c'.
