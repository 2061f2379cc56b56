(* Model of the Matlab reader of SDF files, matlab/sdf_load.m, sdf_load_record.m
   and sdf_load_dataset.m.  An error ends in Abort.  fread reads in full from a
   regular file, unless it ends.  SDF_LOAD_MPS is empty (create_mp and set_matrix
   are not in the repository).  A file that ends within the numbers that say how
   long something is is not modelled: Abort.  Memory is not limited. *)
From Verif Require Import Base Spec S_Reduce S_Sdf S_Pysdf S_Matsdf M_Sdf M_Pysdf.
Local Open Scope Z_scope.

(* What is left of the file, the globals SDF_TAG_TYPE (bytes of a tag) and
   SDF_ENDIAN (is it big endian; None if never set), and feof;
   sdf_load_record.m:24-26, 31-32 *)
Record mst := mkM { mrest : list Z; tag_type : nat; big_endian : option bool; at_eof : bool }.

(* fread(f, n, 'char'): fewer when the file ends, and then feof; sdf_load_record.m:32, 46 *)
Definition fread_chars (n : nat) (s : mst) : list Z * mst :=
  (firstn n (mrest s), mkM (skipn n (mrest s)) (tag_type s) (big_endian s) (at_eof s || (length (mrest s) <? n)%nat)).
(* fread(f, n, ..., 0, SDF_ENDIAN) of numbers of k bytes: as many as there are;
   sdf_load_record.m:26, 68, 71 *)
Definition fread_numbers (k : nat) (n : Z) (s : mst) : outcome (list Z * mst) :=
  match big_endian s with
  | None => Abort
  | Some big =>
    if n <? 0 then Abort else
    let m := Z.to_nat (Z.min n (Z.of_nat (length (mrest s) / k))) in
    Ok (elements big k m (mrest s),
        mkM (skipn (k * m) (mrest s)) (tag_type s) (big_endian s) (at_eof s || (Z.of_nat (length (mrest s)) <? Z.of_nat k * n)))
  end.
(* read_longs, sdf_load_record.m:23-26: the integers become doubles *)
Definition mat_longs (n : Z) (s : mst) : outcome (list Z * mst) :=
  '(ws, s') <- fread_numbers (tag_type s) n s ;;
  if Z.of_nat (length ws) <? n then Abort
  else Ok (map (fun w => round_double (signed (tag_type s) w)) ws, s').
(* read_longs(f, 1), sdf_load_record.m:52, 64, 66, 80 *)
Definition mat_long (s : mst) : outcome (Z * mst) :=
  '(l, s) <- mat_longs 1 s ;; x <- rd l 0 ;; Ok (x, s).

(* A column of numbers, as fread returns it; 0 x 0 if there are none.
   sdf_load_record.m:68-71 *)
Definition column {E} (l : list E) : tensor E := mkT (if (length l =? 0)%nat then [0; 0] else [length l; 1])%nat l.
(* reshape(Pk, dims), sdf_load_record.m:74; at most 2^48-1 elements per dimension *)
Definition reshape {E} (ds : list Z) (l : list E) : outcome (tensor E) :=
  if existsb (fun d => (d <? 0) || (2 ^ 48 <=? d)) ds then Abort
  else if negb (fold_right Z.mul 1 ds =? Z.of_nat (length l)) then Abort
  else Ok (mkT (strip (map Z.to_nat ds)) l).

(* sdf_load_tensor, sdf_load_record.m:62-75.  An odd number of doubles gives
   complex() columns of different lengths. *)
Definition mat_tensor (cplx : bool) (s : mst) : outcome (mobj * list Z * mst) :=
  '(rank, s) <- mat_long s ;;
  '(ds, s) <- mat_longs rank s ;;
  '(L, s) <- mat_long s ;;
  if cplx then
    '(ws, s) <- fread_numbers 8 (2 * L) s ;;
    if Nat.odd (length ws) then Abort else
    a <- (if 1 <? rank then reshape ds (pairs ws) else Ok (column (pairs ws))) ;; Ok (MComplex a, ds, s)
  else
    '(ws, s) <- fread_numbers 8 L s ;;
    a <- (if 1 <? rank then reshape ds ws else Ok (column ws)) ;; Ok (MReal a, ds, s).

(* name(k), an error out of range, sdf_load_record.m:33-41 *)
Definition mchar (name : list Z) (i : nat) : outcome Z :=
  match nth_error name (i - 1) with Some c => Ok c | None => Abort end.
(* ~isempty(name) && all(name(1:3) == ...), sdf_load_record.m:33 *)
Definition mat_header (name : list Z) : outcome bool :=
  if (length name =? 0)%nat then Ok false
  else if (length name <? 3)%nat then Abort
  else Ok (if list_eq_dec Z.eq_dec (firstn 3 name) [115; 100; 102] then true else false).
(* sdf_load_tag, sdf_load_record.m:29-59; code -1 at the end of the file *)
Definition mat_tag (s : mst) : outcome (list Z * Z * mst) :=
  let '(name, s) := fread_chars 64 s in
  h <- mat_header name ;;
  '(name, s) <- (if h : bool then
      c5 <- mchar name 5 ;;
      k <- (if c5 =? 52 then Ok 4%nat else if c5 =? 56 then Ok 8%nat else Abort) ;;
      c6 <- mchar name 6 ;;
      Ok (fread_chars 64 (mkM (mrest s) k (Some (negb (c6 =? 49))) (at_eof s)))
    else Ok (name, s)) ;;
  if at_eof s then Ok ([], -1, s)
  else '(code, s) <- mat_long s ;; Ok (filter (fun c => negb (c =? 0)) name, code, s).

(* [] *)
Definition mnil : mobj := MReal (mkT [0%nat; 0%nat] []).    (* sdf_load_record.m:85 *)

(* for k = 1:L, sdf_load_record.m:82-84 *)
Fixpoint mat_repeat (load1 : mst -> outcome (mobj * list Z * list Z * mst)) (n : nat) (s : mst) : outcome mst :=
  match n with O => Ok s | S n => '(_, _, _, s) <- load1 s ;; mat_repeat load1 n s end.
(* sdf_load_record and sdf_load_mp, sdf_load_record.m:1-20, 78-85: object, name,
   dims.  Matlab limits the depth of calls. *)
Fixpoint mat_record_load (depth : nat) (s : mst) : outcome (mobj * list Z * list Z * mst) :=
  match depth with
  | O => Abort
  | S depth =>
    '(name, code, s) <- mat_tag s ;;
    if code =? -1 then Ok (mnil, [], [0], s)
    else if code =? 0 then '(obj, ds, s) <- mat_tensor false s ;; Ok (obj, name, ds, s)
    else if code =? 1 then '(obj, ds, s) <- mat_tensor true s ;; Ok (obj, name, ds, s)
    else if (code =? 2) || (code =? 3) then
      '(L, s) <- mat_long s ;;
      s <- mat_repeat (mat_record_load depth) (Z.to_nat L) s ;;
      Ok (mnil, name, [0], s)
    else Abort
  end.

(* size(obj), for sdf_load.m:20, 23 *)
Definition msize (o : mobj) : list nat := match o with MReal a => dims a | MComplex a => dims a end.
(* isempty(obj), sdf_load.m:13 *)
Definition mempty (o : mobj) : bool := existsb (fun d => d =? 0)%nat (msize o).
(* the numbers of an array made complex, for cat in sdf_load.m:23 *)
Definition mcomplex (o : mobj) : list (Z * Z) :=
  match o with MReal a => map (fun w => (w, 0)) (data a) | MComplex a => data a end.
(* cat(l, a, b), sdf_load.m:23: 0 x 0 arrays are left out; the sizes must agree
   but for dimension l.  Here b has no dimensions after l, so that the numbers of
   b come after those of a. *)
Definition cat_dims (l : nat) (a b : list nat) : outcome (list nat) :=
  let n := Nat.max l (Nat.max (length a) (length b)) in
  if forallb (fun i => (i =? l - 1) || (nth i a 1 =? nth i b 1))%nat (seq 0 n)
  then Ok (strip (map (fun i => if (i =? l - 1)%nat then (nth i a 1 + nth i b 1)%nat else nth i a 1%nat) (seq 0 n)))
  else Abort.
(* cat with its numbers, sdf_load.m:23 *)
Definition mat_cat (l : nat) (a b : mobj) : outcome mobj :=
  if (l =? 0)%nat then Abort
  else if list_eq_dec Nat.eq_dec (msize a) [0; 0]%nat then Ok b
  else if list_eq_dec Nat.eq_dec (msize b) [0; 0]%nat then Ok a
  else ds <- cat_dims l (msize a) (msize b) ;;
  match a, b with
  | MReal x, MReal y => Ok (MReal (mkT ds (data x ++ data y)))
  | _, _ => Ok (MComplex (mkT ds (mcomplex a ++ mcomplex b)))
  end.

(* the struct, in the order of its fields, sdf_load.m:7 *)
Definition struct := list (list Z * mobj).
(* what sdf_load.m:17-25 does with a named object; setfield refuses names that
   are not identifiers *)
Definition mat_store (data : struct) (name : list Z) (ds : list Z) (obj : mobj) : outcome struct :=
  obj <- (match get_item data name with
    | Some old =>
      let l := length ds in
      let l := if ((1 <? l) || (1 <? nth 0 (msize obj) 0))%nat then S l else l in
      mat_cat l old obj
    | None => Ok obj
    end) ;;
  if valid_field name then Ok (set_item data name obj) else Abort.

(* the loop of sdf_load.m:10-27; each turn but the last reads something *)
Fixpoint mat_loop (depth fuel : nat) (data : struct) (s : mst) : outcome struct :=
  match fuel with
  | O => Hang
  | S fuel =>
    if at_eof s then Ok data else
    '(obj, name, ds, s) <- mat_record_load depth s ;;
    match name with
    | [] => if mempty obj then Ok data else mat_loop depth fuel data s
    | _ => data <- mat_store data name ds obj ;; mat_loop depth fuel data s
    end
  end.
(* data = sdf_load(filename), sdf_load.m:1-38, the globals being what earlier
   calls have left *)
Definition mat_load (tag : nat) (endian : option bool) (depth : nat) (file : list Z) : outcome struct :=
  mat_loop depth (S (length file)) [] (mkM file tag endian false).
