(* Model of the Matlab functions that sort the arrays of a struct:
   matlab/sdf_sort_1d.m and sdf_sort_2d.m.  An error ends in Abort.
   num gives the value of an element of a field by which one sorts; it is a
   finite real number, and sdf_sort_2d computes with such numbers exactly.
   Fields are arrays of numbers, real or complex. *)
From Coq Require Import QArith.
From Verif Require Import Base Spec S_Pysdf S_Matsdf S_Matsort M_Pysdf.
Local Open Scope nat_scope.

Section Sort.
Context {E : Type} (num : E -> Q).

(* k = find(dims > 1); k(end): an error if there are none; sdf_sort_1d.m:14-15,
   sdf_sort_2d.m:41-42.  Positions start with 0. *)
Fixpoint last_big (i : nat) (ds : list nat) : option nat :=
  match ds with
  | [] => None
  | d :: ds => match last_big (S i) ds with Some k => Some k | None => if 1 <? d then Some i else None end
  end.
(* data = reshape(data, numel(data)/l, l); data(:,order);
   sdf_sort_1d.m:20-21, sdf_sort_2d.m:47-48 *)
Definition select (m : nat) (order : list nat) (l : list E) : list E :=
  concat (map (fun p => firstn m (skipn (m * p) l)) order).

(* The sort of Matlab, which keeps equal elements in their order: insertion of an
   earlier index before the later ones; sdf_sort_1d.m:8, sdf_sort_2d.m:14 *)
Fixpoint insert (le : nat -> nat -> bool) (i : nat) (l : list nat) : list nat :=
  match l with
  | [] => [i]
  | j :: l => if le i j then i :: j :: l else j :: insert le i l
  end.
(* [~, order] = sort(...) of n elements, sdf_sort_1d.m:8, sdf_sort_2d.m:14 *)
Definition sort_by (le : nat -> nat -> bool) (n : nat) : list nat := fold_right (insert le) [] (seq 0 n).

(* sortrows compares rows from the first column on, sdf_sort_1d.m:8 *)
Fixpoint row_le (cols : list (list Q)) (p q : nat) : bool :=
  match cols with
  | [] => true
  | c :: cols =>
    match (nth p c 0 ?= nth q c 0)%Q with
    | Lt => true
    | Gt => false
    | Eq => row_le cols p q
    end
  end.

(* getfield, an error if there is no such field; sdf_sort_1d.m:5, sdf_sort_2d.m:2-11 *)
Definition getfield (r : record E) (name : list Z) : outcome (tensor E) :=
  match get_item r name with Some t => Ok t | None => Abort end.
(* data = [data, aux(:)], an error if the columns have different lengths;
   sdf_sort_1d.m:4-7 *)
Fixpoint columns (r : record E) (data_ : list (list Q)) (names : list (list Z)) : outcome (list (list Q)) :=
  match names with
  | [] => Ok data_
  | name :: names =>
    t <- getfield r name ;;
    let aux := map num (data t) in
    if forallb (fun c => length c =? length aux) data_ then columns r (data_ ++ [aux]) names else Abort
  end.
(* the body of the loop over the fields, sdf_sort_1d.m:11-23.  There is no
   function warn in Matlab, and no variable field. *)
Definition field_1d (order : list nat) (t : tensor E) : outcome (tensor E) :=
  match last_big 0 (dims t) with
  | None => Abort
  | Some k =>
    let l := length order in
    if negb (nth k (dims t) 0 =? l) then Abort
    else Ok (mkT (dims t) (select (length (data t) / l) order (data t)))
  end.
(* for i = 1:length(names) ... setfield, sdf_sort_1d.m:10-24, sdf_sort_2d.m:38-51 *)
Fixpoint over_fields (f : tensor E -> outcome (tensor E)) (names : list (list Z)) (r : record E) : outcome (record E) :=
  match names with
  | [] => Ok r
  | name :: names =>
    t <- getfield r name ;; t' <- f t ;; over_fields f names (set_item r name t')
  end.
(* sdf_sort_1d(record, ...), sdf_sort_1d.m:1-24 *)
Definition sort_1d (r : record E) (fields : list (list Z)) : outcome (record E) :=
  cols <- columns r [] fields ;;
  let n := match cols with [] => 0 | c :: _ => length c end in
  let order := sort_by (row_le cols) n in
  over_fields (field_1d order) (map fst r) r.

(* min of a vector, sdf_sort_2d.m:12-14 *)
Definition qmin (l : list Q) : Q := match l with [] => 0 | v :: l => fold_left (fun m w => if Qle_bool m w then m else w) l v end.
(* max of a vector, sdf_sort_2d.m:14 *)
Definition qmax (l : list Q) : Q := match l with [] => 0 | v :: l => fold_left (fun m w => if Qle_bool w m then m else w) l v end.
(* datax - min(datax), sdf_sort_2d.m:12-13 *)
Definition shifted (l : list Q) : list Q := map (fun v => v - qmin l)%Q l.
(* the order of datax/max(datax) + 2*datay/min(datay(find(datay))),
   sdf_sort_2d.m:14.  If all x are equal, 0/0 makes every element NaN and they
   remain where they are.  If all y are equal the sum is empty, and so is order,
   which ends in an error. *)
Definition order_2d (x y : list Q) : outcome (list nat) :=
  match filter (fun v => negb (Qeq_bool v 0)) y with
  | [] => Abort
  | nz =>
    let key := fun p => (nth p x 0 / qmax x + 2 * nth p y 0 / qmin nz)%Q in
    if Qeq_bool (qmax x) 0 then Ok (seq 0 (length x))
    else Ok (sort_by (fun p q => Qle_bool (key p) (key q)) (length x))
  end.
(* the body of the loop over the fields, sdf_sort_2d.m:39-50 *)
Definition field_2d (order : list nat) (rows cols : nat) (t : tensor E) : outcome (tensor E) :=
  match last_big 0 (dims t) with
  | None => Abort
  | Some k =>
    let l := length order in
    if negb (nth k (dims t) 0 =? l) then Abort
    else Ok (mkT (strip (firstn k (dims t) ++ [rows; cols])) (select (length (data t) / l) order (data t)))
  end.
(* the arguments rows and cols, of which the last or both may be missing; without
   rows they are as many as the entries with the x of the first;
   sdf_sort_2d.m:21-37.  They are natural numbers here. *)
Definition shape_2d (x : list Q) (l : nat) (args : option (nat * option nat)) : outcome (nat * nat) :=
  match args with
  | Some (rows, Some cols) => if cols * rows =? l then Ok (rows, cols) else Abort
  | _ =>
    let rows := match args with Some (rows, _) => rows | None => length (filter (fun v => Qeq_bool v (nth 0 x 0%Q)) x) end in
    if rows =? 0 then Abort else if l mod rows =? 0 then Ok (rows, l / rows) else Abort
  end.
(* sdf_sort_2d(record, fieldx, fieldy, rows, cols), sdf_sort_2d.m:1-51.  The two
   fields are vectors (min of a matrix is a row: not modelled, UB).  A row and a
   column cannot be added, or their sum is a matrix and reshape fails. *)
Definition sort_2d (r : record E) (fieldx fieldy : list Z) (args : option (nat * option nat)) : outcome (record E) :=
  tx <- getfield r fieldx ;;
  ty <- getfield r fieldy ;;
  if negb (existsb (fun d => d =? 1) (dims tx) && existsb (fun d => d =? 1) (dims ty) && (length (dims tx) =? 2) && (length (dims ty) =? 2)) then UB else
  if negb (if list_eq_dec Nat.eq_dec (dims tx) (dims ty) then true else false) then Abort else
  if length (data tx) =? 0 then Abort else
  let x := shifted (map num (data tx)) in
  let y := shifted (map num (data ty)) in
  order <- order_2d x y ;;
  '(rows, cols) <- shape_2d x (length x) args ;;
  over_fields (field_2d order rows cols) (map fst r) r.

End Sort.
