(* Model of the Python reader of SDF files, python/sdf.py.  An exception ends in
   Abort.  [host_big] is the byte order of the machine the reader runs on,
   [maxdims] the number of dimensions numpy supports, [decode] the decoder
   str(_, 'utf-8') (None when it raises), [junk k] the memory of the k-th new
   array.  A regular file is read in full by read and readinto, unless it ends.
   Memory is not limited. *)
From Verif Require Import Base Spec S_Sdf S_Pysdf M_Sdf.
Local Open Scope Z_scope.

Section Reader.
Context (host_big : bool) (maxdims : nat) (decode : list Z -> option (list Z)) (junk : nat -> nat -> Z).

(* The object: what is left of the file, the size of a long, self.interpret,
   and the number of arrays made; sdf.py:48-53 *)
Record pst := mkP { prest : list Z; longs : nat; interpret : bool; arrays : nat }.

(* self.f.read(n), BufferedReader.read. Used in sdf.py:127, 141 *)
Definition py_read (n : nat) (s : pst) : list Z * pst :=
  (firstn n (prest s), mkP (skipn n (prest s)) (longs s) (interpret s) (arrays s)).
(* np.ndarray((n,), ...) of k-byte elements, and self.f.readinto of it.
   Used in sdf.py:106-107, 113-114, 120-121 *)
Definition py_readinto (k : nat) (n : Z) (s : pst) : outcome (list Z * pst) :=
  if (n <? 0) || (2 ^ 63 <=? n * Z.of_nat k) then Abort else
  let m := (k * Z.to_nat n)%nat in
  let got := firstn m (prest s) in
  Ok (got ++ skipn (length got) (alloc (junk (arrays s)) m), mkP (skipn m (prest s)) (longs s) (interpret s) (S (arrays s))).

(* one element of an array in the byte order of the machine, sdf.py:39-46 *)
Definition native (bs : list Z) : Z := of_le (if host_big then rev bs else bs).
(* the numbers of an array, sdf.py:105-124 *)
Fixpoint elements (k n : nat) (bs : list Z) : list Z :=
  match n with O => [] | S n => native (firstn k bs) :: elements k n (skipn k bs) end.
(* 'i4' and 'i8' of sdf.py:40-42 *)
Definition signed (k : nat) (w : Z) : Z := if w <? 2 ^ (8 * Z.of_nat k - 1) then w else w - 2 ^ (8 * Z.of_nat k).

(* read_longs, sdf.py:105-110.  There is no attribute byteswwap. *)
Definition read_longs (n : Z) (s : pst) : outcome (list Z * pst) :=
  '(bs, s) <- py_readinto (longs s) n s ;;
  if interpret s then Abort else Ok (map (signed (longs s)) (elements (longs s) (Z.to_nat n) bs), s).
(* read_longs(1)[0] sdf.py:91, 96, 98, 144 *)
Definition read_long (s : pst) : outcome (Z * pst) :=
  '(l, s) <- read_longs 1 s ;; x <- rd l 0 ;; Ok (x, s).
(* read_doubles, sdf.py:112-117 *)
Definition read_doubles (n : Z) (s : pst) : outcome (list Z * pst) :=
  '(bs, s) <- py_readinto 8 n s ;;
  if interpret s then Abort else Ok (elements 8 (Z.to_nat n) bs, s).
(* read_complex, sdf.py:119-124 *)
Definition read_complex (n : Z) (s : pst) : outcome (list (Z * Z) * pst) :=
  '(bs, s) <- py_readinto 16 n s ;;
  if interpret s then Abort else Ok (pairs (elements 8 (2 * Z.to_nat n) bs), s).

(* np.ndarray(shape=dims, buffer=data, order='F'): refuses too many or negative
   dimensions and a buffer that is too small; an array without dimensions has
   one element. Called in sdf.py:103 *)
Definition np_ndarray {E} (ds : list Z) (buffer : list E) : outcome (tensor E) :=
  if (maxdims <? length ds)%nat then Abort
  else if existsb (fun d => d <? 0) ds then Abort
  else let n := fold_right Z.mul 1 ds in
  if Z.of_nat (length buffer) <? n then Abort
  else Ok (mkT (map Z.to_nat ds) (firstn (Z.to_nat n) buffer)).

(* load_tensor, sdf.py:95-103 *)
Definition load_tensor (iscomplex : bool) (s : pst) : outcome (pyobj * pst) :=
  '(rank, s) <- read_long s ;;
  '(ds, s) <- read_longs rank s ;;
  '(L, s) <- read_long s ;;
  if iscomplex then '(d, s) <- read_complex L s ;; a <- np_ndarray ds d ;; Ok (PyComplex a, s)
  else '(d, s) <- read_doubles L s ;; a <- np_ndarray ds d ;; Ok (PyReal a, s).

(* name[i], which raises IndexError out of range, sdf.py:130-137 *)
Definition char (name : list Z) (i : nat) : outcome Z :=
  match nth_error name i with Some c => Ok c | None => Abort end.
(* name[0] == 115 and name[1] == 100 and name[2] == 102, sdf.py:130 *)
Definition is_header (name : list Z) : outcome bool :=
  c0 <- char name 0 ;; if negb (c0 =? 115) then Ok false else
  c1 <- char name 1 ;; if negb (c1 =? 100) then Ok false else
  c2 <- char name 2 ;; Ok (c2 =? 102).
(* load_tag, sdf.py:126-147 *)
Definition load_tag (s : pst) : outcome (list Z * Z * pst) :=
  let '(name, s) := py_read 64 s in
  if (length name =? 0)%nat then Ok ([], -1, s) else
  h <- is_header name ;;
  '(name, s) <- (if h : bool then
     c4 <- char name 4 ;;
     k <- (if c4 =? 52 then Ok 4%nat else if c4 =? 56 then Ok 8%nat else Abort) ;;
     c5 <- char name 5 ;;
     let file_big := negb (c5 =? 49) in
     Ok (py_read 64 (mkP (prest s) k (xorb host_big file_big) (arrays s)))
   else Ok (name, s)) ;;
  match decode (cstr name) with
  | None => Abort
  | Some name => '(code, s) <- read_long s ;; Ok (name, code, s)
  end.

(* range(L), sdf.py:92 *)
Fixpoint repeat_load (load1 : pst -> outcome (pyobj * list Z * pst)) (n : nat) (s : pst) : outcome pst :=
  match n with O => Ok s | S n => '(_, _, s) <- load1 s ;; repeat_load load1 n s end.
(* load_record and load_mp, sdf.py:72-93.  Python limits the depth of calls. *)
Fixpoint load_record (depth : nat) (s : pst) : outcome (pyobj * list Z * pst) :=
  match depth with
  | O => Abort
  | S depth =>
    '(name, code, s) <- load_tag s ;;
    if code =? -1 then Ok (PyNil, [], s)
    else if code =? 0 then '(obj, s) <- load_tensor false s ;; Ok (obj, name, s)
    else if code =? 1 then '(obj, s) <- load_tensor true s ;; Ok (obj, name, s)
    else if (code =? 2) || (code =? 3) then
      '(L, s) <- read_long s ;;
      s <- repeat_load (load_record depth) (Z.to_nat L) s ;;
      Ok (PyNil, name, s)
    else Abort
  end.

(* a dictionary, in the order of insertion, sdf.py:57 *)
Definition dict := list (list Z * pyobj).
(* output[name] = obj, sdf.py:61 *)
Fixpoint set_item {V} (d : list (list Z * V)) (name : list Z) (obj : V) : list (list Z * V) :=
  match d with
  | [] => [(name, obj)]
  | (n, o) :: d => if list_eq_dec Z.eq_dec n name then (n, obj) :: d else (n, o) :: set_item d name obj
  end.

(* the loop of load, sdf.py:55-66; each turn but the last reads something *)
Fixpoint load_loop (depth fuel : nat) (output : dict) (s : pst) : outcome dict :=
  match fuel with
  | O => Hang
  | S fuel =>
    '(obj, name, s) <- load_record depth s ;;
    match name with
    | [] => Ok output
    | _ => load_loop depth fuel (set_item output name obj) s
    end
  end.
(* load, sdf.py:11-16, 48-53, without into= *)
Definition py_load (depth : nat) (file : list Z) : outcome dict :=
  load_loop depth (S (length file)) [] (mkP file 4 false 0).

(* ---- datasets ---- *)

(* numpy's view of an object given to np.stack: asanyarray([]) is an empty array
   of doubles; doubles become complex numbers when needed. Called in sdf.py:34 *)
Definition as_array (o : pyobj) : tensor Z + tensor (Z * Z) :=
  match o with PyReal a => inl a | PyComplex a => inr a | PyNil => inl (mkT [0%nat] []) end.
(* the shape of an array, for sdf.py:34 *)
Definition shape_of (o : pyobj) : list nat := match as_array o with inl a => dims a | inr a => dims a end.
(* whether its numbers are complex, for sdf.py:34 *)
Definition is_complex (o : pyobj) : bool := match as_array o with inl _ => false | inr _ => true end.
(* its numbers, for sdf.py:34 *)
Definition reals_of (o : pyobj) : list Z := match as_array o with inl a => data a | inr _ => [] end.
(* its numbers, made complex if needed, for sdf.py:34 *)
Definition complex_of (o : pyobj) : list (Z * Z) := match as_array o with inl a => map (fun x => (x, 0)) (data a) | inr a => data a end.
(* np.stack(objs, axis=objs[0].ndim): along a new last dimension, which in
   column-major order means one after the other, sdf.py:34 *)
Definition np_stack (o : pyobj) (objs : list pyobj) : outcome pyobj :=
  let sh := shape_of o in
  if negb (forallb (fun o' => if list_eq_dec Nat.eq_dec (shape_of o') sh then true else false) objs) then Abort
  else if (maxdims <=? length sh)%nat then Abort
  else if existsb is_complex (o :: objs) then Ok (PyComplex (mkT (sh ++ [S (length objs)]) (concat (map complex_of (o :: objs)))))
  else Ok (PyReal (mkT (sh ++ [S (length objs)]) (concat (map reals_of (o :: objs))))).

(* data[name], KeyError if there is none, sdf.py:30 *)
Definition item (d : dict) (name : list Z) : outcome pyobj := match get_item d name with Some o => Ok o | None => Abort end.
(* the loop of combine_dataset, sdf.py:29-34 *)
Fixpoint combine_loop (first : dict) (others : list dict) (names : list (list Z)) : outcome (list (list Z * pycol)) :=
  match names with
  | [] => Ok []
  | name :: names =>
    o <- item first name ;;
    objs <- mapM (fun d => item d name) others ;;
    c <- (match o with PyNil => Ok (PyList (o :: objs)) | _ => a <- np_stack o objs ;; Ok (PyArray a) end) ;;
    l <- combine_loop first others names ;;
    Ok ((name, c) :: l)
  end.
(* combine_dataset, sdf.py:27-35; set[0] of an empty list raises IndexError *)
Definition combine_dataset (set : list dict) : outcome (list (list Z * pycol)) :=
  match set with
  | [] => Abort
  | first :: others => combine_loop first others (map fst first)
  end.
(* load_dataset, sdf.py:23-25: all the files of the directory, in any order *)
Definition load_dataset (depth : nat) (files : list (list Z)) : outcome (list (list Z * pycol)) :=
  set <- mapM (py_load depth) files ;; combine_dataset set.

(* data[field][0], the key of sdf.py:20.  Only keys that are real numbers are
   modelled: for arrays with more dimensions and complex numbers, which numpy
   can sometimes compare, the model gives up. sdf.py:20 *)
Definition sort_key (field : list Z) (d : dict) : outcome Z :=
  o <- item d field ;;
  match o with
  | PyReal (mkT [_] (w :: _)) => Ok w
  | _ => Abort
  end.
(* load_sorted_dataset, sdf.py:18-21, with list.sort as a parameter *)
Definition load_sorted_dataset (sort : list (Z * dict) -> list (Z * dict)) (depth : nat) (files : list (list Z)) (field : list Z)
  : outcome (list (list Z * pycol)) :=
  set <- mapM (py_load depth) files ;;
  keyed <- mapM (fun d => k <- sort_key field d ;; Ok (k, d)) set ;;
  combine_dataset (map snd (sort keyed)).
End Reader.
