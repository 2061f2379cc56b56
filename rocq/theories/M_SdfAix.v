(* Model of the branch for AIX of the SDF files: odata_file.cc:39-91 and
   idata_file.cc:34-83 reverse the bytes of every number in a buffer on the
   stack.  AIX is big endian: the most significant byte of a number is the first
   in memory.  long, size_t and double have 8 bytes and int has 4.  The `min` of
   idata_file.cc:53 is taken to be std::min.  I/O errors other than the end of
   the file do not happen. *)
From Verif Require Import Base Spec S_Reduce S_Sdf M_Tensor M_Sdf.

(* the k bytes of a word in the memory of a big-endian machine, the argument of
   write_raw_with_endian, odata_file.cc:42 *)
Definition be (k : nat) (w : Z) : list Z := rev (le k w).
(* char buffer[buffer_size], odata_file.cc:55-57, idata_file.cc:48-50 *)
Definition buffer_size : nat := 32 * 32.

Section Swap.
Context (B : nat).

(* buffer[i+size-1] = *(alias++), ..., buffer[i] = *(alias++);
   odata_file.cc:62-80: the three cases do the same *)
Fixpoint put_number (j i alias : nat) (mem buffer : list Z) : outcome (list Z * nat) :=
  match j with
  | O => Ok (buffer, alias)
  | S j => c <- rd mem alias ;; buffer <- wr buffer (i + j) c ;; put_number j i (S alias) mem buffer
  end.
(* for (size_t i = 0; i < now; i+=size) { ... n--; }, odata_file.cc:61-82 *)
Fixpoint put_numbers (fuel size i now alias n : nat) (mem buffer : list Z) : outcome (list Z * nat * nat) :=
  match fuel with
  | O => Hang
  | S fuel =>
    if i <? now then
      '(buffer, alias) <- put_number size i alias mem buffer ;;
      put_numbers fuel size (i + size) now alias (n - 1) mem buffer
    else Ok (buffer, alias, n)
  end.
(* do { ... } while (n), odata_file.cc:59-89; file is what has been written *)
Fixpoint write_loop (fuel size alias n : nat) (mem buffer file : list Z) : outcome (list Z) :=
  match fuel with
  | O => Hang
  | S fuel =>
    let now := Nat.min n (B / size) * size in
    '(buffer, alias, n) <- put_numbers (S now) size 0 now alias n mem buffer ;;
    let file := file ++ firstn now buffer in
    if n =? 0 then Ok file else write_loop fuel size alias n mem buffer file
  end.
(* write_raw_with_endian(s, data, n) with sizeof(number) = size,
   odata_file.cc:41-90.  junk is what is in the buffer before. *)
Definition write_swapped (junk : nat -> Z) (size : nat) (mem : list Z) (n : nat) : outcome (list Z) :=
  if size =? 1 then Ok (firstn n mem)
  else write_loop (S n) size 0 n mem (alloc junk B) [].

(* *(alias++) = buffer[i+size-1], ..., *(alias++) = buffer[i];
   idata_file.cc:60-78 *)
Fixpoint get_number (j i alias : nat) (mem buffer : list Z) : outcome (list Z * nat) :=
  match j with
  | O => Ok (mem, alias)
  | S j => c <- rd buffer (i + j) ;; mem <- wr mem alias c ;; get_number j i (S alias) mem buffer
  end.
(* for (size_t i = 0; i < now; i+=size) { ... n--; }, idata_file.cc:59-80 *)
Fixpoint get_numbers (fuel size i now alias n : nat) (mem buffer : list Z) : outcome (list Z * nat * nat) :=
  match fuel with
  | O => Hang
  | S fuel =>
    if i <? now then
      '(mem, alias) <- get_number size i alias mem buffer ;;
      get_numbers fuel size (i + size) now alias (n - 1) mem buffer
    else Ok (mem, alias, n)
  end.
(* s.read(buffer, now), idata_file.cc:54: at the end of the file the rest of the
   buffer stays as it was, and later reads do nothing *)
Definition read_into (now : nat) (buffer : list Z) (st : rstate) : list Z * rstate :=
  if failed st then (buffer, mkRS (rest st) true (S (reads st)))
  else if now <=? length (rest st) then (firstn now (rest st) ++ skipn now buffer, mkRS (skipn now (rest st)) false (S (reads st)))
  else (rest st ++ skipn (length (rest st)) buffer, mkRS [] true (S (reads st))).
(* do { ... } while (n), idata_file.cc:52-81 *)
Fixpoint read_loop (fuel size alias n : nat) (mem buffer : list Z) (st : rstate) : outcome (list Z * rstate) :=
  match fuel with
  | O => Hang
  | S fuel =>
    let now := Nat.min (n * size) B in
    let '(buffer, st) := read_into now buffer st in
    '(mem, alias, n) <- get_numbers (S now) size 0 now alias n mem buffer ;;
    if n =? 0 then Ok (mem, st) else read_loop fuel size alias n mem buffer st
  end.
(* read_raw_with_endian(s, data, n) with sizeof(number) = size, not 1;
   idata_file.cc:35-82 *)
Definition read_swapped (junk : nat -> Z) (size : nat) (mem : list Z) (n : nat) (st : rstate) : outcome (list Z * rstate) :=
  read_loop (S n) size 0 n mem (alloc junk B) st.
End Swap.

(* write_raw of longs, sizes and doubles, odata_file.cc:137-156 *)
Definition write_words_aix (junk : nat -> Z) (ws : list Z) : outcome chunk :=
  write_swapped buffer_size junk 8 (flat_map (be 8) ws) (length ws).
(* the words in the memory of a big-endian machine, idata_file.cc:108-134 *)
Fixpoint words_be (n : nat) (bs : list Z) : list Z :=
  match n with O => [] | S n => of_le (rev (firstn 8 bs)) :: words_be n (skipn 8 bs) end.
(* read_raw of longs, sizes and doubles, idata_file.cc:108-134; mem is what was
   in the memory *)
Definition read_words_aix (junk memory : nat -> Z) (n : nat) (st : rstate) : outcome (list Z * rstate) :=
  '(mem, st) <- read_swapped buffer_size junk 8 (alloc memory (8 * n)) n st ;; Ok (words_be n mem, st).

(* write_header, odata_file.cc:255-264, with TENSOR_BIGENDIAN, data_file.cc:33-34,
   which m4/tensor.m4:11 defines on every big-endian machine *)
Definition header_aix : list chunk := write_variable_name [115; 100; 102; 48 + 4; 48 + 8; 48 + 0]%Z.

(* ---- writing values ---- *)

(* A call of write_raw at a time; the calls that follow, odata_file.cc:123-163 *)
Definition then_write (a b : outcome (list chunk)) : outcome (list chunk) := x <- a ;; y <- b ;; Ok (x ++ y).
(* write_raw of numbers, odata_file.cc:137-156 *)
Definition raw_aix (junk : nat -> Z) (ws : list Z) : outcome (list chunk) := c <- write_words_aix junk ws ;; Ok [c].
(* write_tag, odata_file.cc:175-180; the characters of the name are not reversed,
   odata_file.cc:44-52 *)
Definition write_tag_aix junk (name : list Z) (type : Z) : outcome (list chunk) :=
  then_write (Ok (write_variable_name name)) (raw_aix junk [to_word type]).
(* dump_vector, odata_file.cc:182-187 *)
Definition dump_vector_aix junk (n : nat) (ws : list Z) : outcome (list chunk) :=
  then_write (raw_aix junk [Z.of_nat n]) (raw_aix junk ws).
(* dump(RTensor), odata_file.cc:189-195 *)
Definition dump_R_aix junk (t : stored Z) name : outcome (list chunk) :=
  then_write (write_tag_aix junk name TAG_RTENSOR)
    (then_write (dump_vector_aix junk (length (sdims t)) (map to_word (sdims t))) (dump_vector_aix junk (length (selts t)) (selts t))).
(* dump(CTensor), odata_file.cc:197-203 *)
Definition dump_C_aix junk (t : stored (Z * Z)) name : outcome (list chunk) :=
  then_write (write_tag_aix junk name TAG_CTENSOR)
    (then_write (dump_vector_aix junk (length (sdims t)) (map to_word (sdims t))) (dump_vector_aix junk (length (selts t)) (complex_words (selts t)))).
(* the loops of dump(std::vector), odata_file.cc:209-211, 219-221 *)
Fixpoint dump_many {T} (dump1 : T -> outcome (list chunk)) (l : list T) : outcome (list chunk) :=
  match l with [] => Ok [] | t :: l => then_write (dump1 t) (dump_many dump1 l) end.
(* dump, odata_file.cc:189-253 *)
Definition dump_aix junk (v : value) (name : list Z) : outcome (list chunk) :=
  match v with
  | VR t => dump_R_aix junk t name
  | VC t => dump_C_aix junk t name
  | VRs l => then_write (write_tag_aix junk name TAG_RTENSOR_VECTOR) (then_write (raw_aix junk [Z.of_nat (length l)]) (dump_many (fun t => dump_R_aix junk t []) l))
  | VCs l => then_write (write_tag_aix junk name TAG_CTENSOR_VECTOR) (then_write (raw_aix junk [Z.of_nat (length l)]) (dump_many (fun t => dump_C_aix junk t []) l))
  | VDouble w => dump_R_aix junk (mkST [1%Z] [w]) name
  | VComplex re im => dump_C_aix junk (mkST [1%Z] [(re, im)]) name
  | VSize v => dump_R_aix junk (mkST [1%Z] [double_bits v]) name
  | VInt v => dump_R_aix junk (mkST [1%Z] [double_bits v]) name
  end.
(* a new file with these values, odata_file.cc:98-121 and 189-264 *)
Definition file_aix junk (rs : list (list Z * value)) : outcome (list Z) :=
  cs <- dump_many (fun r => dump_aix junk (snd r) (fst r)) rs ;; Ok (concat (header_aix ++ cs)).

(* ---- reading values ---- *)

Section Read.
(* what is in the buffer, in the memory of the numbers, and in the memory of the
   characters, idata_file.cc:48-50, 147, 178 *)
Context (junk memory : nat -> Z) (chars : nat -> nat -> Z).
(* read_raw of one number, sdf.h:149-151 *)
Definition read_word_aix (st : rstate) : outcome (Z * rstate) :=
  '(ws, st) <- read_words_aix junk memory 1 st ;; w <- rd ws 0 ;; Ok (w, st).
(* read_tag, idata_file.cc:154-171 *)
Definition read_tag_aix (name : list Z) (type : Z) (st : rstate) : outcome rstate :=
  '(other_name, st) <- read_variable_name chars st ;;
  if negb (length name =? 0) && negb (eqb_string name other_name) then Abort else
  '(other_type, st) <- read_word_aix st ;;
  let other_type := to_signed other_type in
  if negb (type =? other_type)%Z then
    _ <- tag_to_name type ;; _ <- tag_to_name other_type ;; Abort
  else Ok st.
(* load_vector, idata_file.cc:173-181; count is 2 for complex numbers,
   idata_file.cc:129-134 *)
Definition load_vector_aix (count : nat) (st : rstate) : outcome (list Z * rstate) :=
  '(length, st) <- read_word_aix st ;;
  n <- new_vector length ;;
  read_words_aix junk memory (count * n) st.
(* load(RTensor), idata_file.cc:183-188 *)
Definition load_R_aix name st : outcome (stored Z * rstate) :=
  st <- read_tag_aix name TAG_RTENSOR st ;;
  '(dims, st) <- load_vector_aix 1 st ;;
  '(v, st) <- load_vector_aix 1 st ;;
  _ <- assert_ (total_sizeZ (map to_signed dims) =? Z.of_nat (length v))%Z ;;
  Ok (mkST (map to_signed dims) v, st).
(* load(CTensor), idata_file.cc:190-195 *)
Definition load_C_aix name st : outcome (stored (Z * Z) * rstate) :=
  st <- read_tag_aix name TAG_CTENSOR st ;;
  '(dims, st) <- load_vector_aix 1 st ;;
  '(v, st) <- load_vector_aix 2 st ;;
  _ <- assert_ (total_sizeZ (map to_signed dims) =? Z.of_nat (length (pairs v)))%Z ;;
  Ok (mkST (map to_signed dims) (pairs v), st).
(* load(std::vector), idata_file.cc:197-219 *)
Definition load_vec_aix {T} (load1 : list Z -> rstate -> outcome (T * rstate)) type name st : outcome (list T * rstate) :=
  st <- read_tag_aix name type st ;;
  '(l, st) <- read_word_aix st ;;
  if (2 ^ 56 <=? l)%Z then Abort else load_many (load1 []) (Z.to_nat l) st.
(* load(double), idata_file.cc:221-232 *)
Definition load_double_aix name st : outcome (Z * rstate) :=
  '(t, st) <- load_R_aix name st ;;
  if 1 <? length (selts t) then Abort else x <- rd (selts t) 0 ;; Ok (x, st).
(* load(cdouble), idata_file.cc:234-245 *)
Definition load_cdouble_aix name st : outcome ((Z * Z) * rstate) :=
  '(t, st) <- load_C_aix name st ;;
  if 1 <? length (selts t) then Abort else x <- rd (selts t) 0 ;; Ok (x, st).
(* load, idata_file.cc:183-261 *)
Definition load_aix (k : kind) (name : list Z) (st : rstate) : outcome (value * rstate) :=
  match k with
  | KR => '(t, st) <- load_R_aix name st ;; Ok (VR t, st)
  | KC => '(t, st) <- load_C_aix name st ;; Ok (VC t, st)
  | KRs => '(l, st) <- load_vec_aix load_R_aix TAG_RTENSOR_VECTOR name st ;; Ok (VRs l, st)
  | KCs => '(l, st) <- load_vec_aix load_C_aix TAG_CTENSOR_VECTOR name st ;; Ok (VCs l, st)
  | KDouble => '(w, st) <- load_double_aix name st ;; Ok (VDouble w, st)
  | KComplex => '(c, st) <- load_cdouble_aix name st ;; Ok (VComplex (fst c) (snd c), st)
  | KSize => '(w, st) <- load_double_aix name st ;; v <- double_to 0 (2 ^ 64) w ;; Ok (VSize v, st)
  | KInt => '(w, st) <- load_double_aix name st ;; v <- double_to (- 2 ^ 31) (2 ^ 31) w ;; Ok (VInt v, st)
  end.
(* read_header, idata_file.cc:263-284: the digit of the machine is 0 *)
Definition read_header_aix (st : rstate) : outcome rstate :=
  '(s, st) <- read_variable_name chars st ;;
  c0 <- char_at s 0 ;; if negb (c0 =? 115)%Z then Abort else
  c1 <- char_at s 1 ;; if negb (c1 =? 100)%Z then Abort else
  c2 <- char_at s 2 ;; if negb (c2 =? 102)%Z then Abort else
  c3 <- char_at s 3 ;; c4 <- char_at s 4 ;; c5 <- char_at s 5 ;;
  if negb (c3 - 48 =? 4)%Z || negb (c4 - 48 =? 8)%Z || negb (c5 - 48 =? 0)%Z then Abort else Ok st.
(* a program that loads variables of these kinds under these names, in order.
   Calls of load, sdf.h:127-134 *)
Fixpoint load_all_aix (l : list (kind * list Z)) (st : rstate) : outcome (list value * rstate) :=
  match l with
  | [] => Ok ([], st)
  | (k, name) :: l => '(v, st) <- load_aix k name st ;; '(vs, st) <- load_all_aix l st ;; Ok (v :: vs, st)
  end.
End Read.
