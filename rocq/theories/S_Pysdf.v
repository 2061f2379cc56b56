(* Vocabulary for the Python reader of SDF files. *)
From Verif Require Import Base Spec S_Sdf.
From Coq Require Import Permutation.

(* What the reader makes of a record: a numpy array of doubles or of complex
   numbers (given by their bits, in column-major order), or the empty list *)
Inductive pyobj := PyReal (a : tensor Z) | PyComplex (a : tensor (Z * Z)) | PyNil.

(* the array with the dimensions and elements of a stored tensor *)
Definition array_of {E} (t : stored E) : tensor E := mkT (map Z.to_nat (sdims t)) (selts t).
(* how a value comes out, [bits] being the double of a number: the contents of
   vectors of tensors are not kept *)
Definition as_python (bits : Z -> Z) (v : value) : pyobj :=
  match v with
  | VInt v | VSize v => PyReal (mkT [1] [bits v])
  | VDouble w => PyReal (mkT [1] [w])
  | VComplex re im => PyComplex (mkT [1] [(re, im)])
  | VR t => PyReal (array_of t)
  | VC t => PyComplex (array_of t)
  | VRs _ | VCs _ => PyNil
  end.

(* Names that are ASCII text, not empty, and do not start with "sdf" *)
Definition py_name (n : list Z) : Prop :=
  n <> [] /\ Forall (fun c => 0 < c < 128)%Z n /\ firstn 3 n <> [115; 100; 102]%Z.
(* Tensors that have at least one and at most [maxdims] dimensions, none of them
   negative *)
Definition py_shape (maxdims : nat) {E} (t : stored E) : Prop :=
  1 <= length (sdims t) <= maxdims /\ Forall (fun d => 0 <= d)%Z (sdims t).
Definition py_value (maxdims : nat) (v : value) : Prop :=
  match v with
  | VR t => py_shape maxdims t
  | VC t => py_shape maxdims t
  | VRs l => Forall (py_shape maxdims) l
  | VCs l => Forall (py_shape maxdims) l
  | _ => True
  end.

(* the value of the last record with this name *)
Fixpoint last_value (rs : list (list Z * value)) (name : list Z) : option value :=
  match rs with
  | [] => None
  | (n, v) :: rs => match last_value rs name with
    | Some w => Some w
    | None => if list_eq_dec Z.eq_dec n name then Some v else None
    end
  end.

(* The order of doubles, given by their bits *)
Definition is_nan (w : Z) : Prop := (2 ^ 52 * 2047 < w mod 2 ^ 63)%Z.
Definition double_key (w : Z) : Z := (if w <? 2 ^ 63 then w else - (w - 2 ^ 63))%Z.

(* l' is l sorted by key, equal keys in the same order as before *)
Definition stably_sorted {T} (key : T -> Z) (l l' : list T) : Prop :=
  Permutation l l' /\
  (forall i j x y, i < j -> nth_error l' i = Some x -> nth_error l' j = Some y -> (key x <= key y)%Z) /\
  forall k, filter (fun x => key x =? k)%Z l' = filter (fun x => key x =? k)%Z l.

(* numpy arrays: the shape, and the element at some indices, a double w being
   the complex number (w, 0) *)
Definition np_shape (o : pyobj) : list nat := match o with PyReal a => dims a | PyComplex a => dims a | PyNil => [] end.
Definition np_number (o : pyobj) (ix : list nat) : option (Z * Z) :=
  match o with PyReal a => option_map (fun w => (w, 0%Z)) (elt a ix) | PyComplex a => elt a ix | PyNil => None end.
Definition np_complex (o : pyobj) : Prop := match o with PyComplex _ => True | _ => False end.
(* a holds the arrays of the list along a new last dimension *)
Definition stacked (objs : list pyobj) (a : pyobj) : Prop :=
  (forall o, In o objs -> np_shape a = np_shape o ++ [length objs]) /\
  (np_complex a <-> exists o, In o objs /\ np_complex o) /\
  forall k o ix, nth_error objs k = Some o -> np_number a (ix ++ [k]) = np_number o ix.

(* a Python dictionary as a list of its items, and d.get(name) *)
Fixpoint get_item {V} (d : list (list Z * V)) (name : list Z) : option V :=
  match d with
  | [] => None
  | (n, o) :: d => if list_eq_dec Z.eq_dec n name then Some o else get_item d name
  end.

(* What combine_dataset makes of the objects with one name: an array, or a list
   if they are vectors of tensors *)
Inductive pycol := PyList (l : list pyobj) | PyArray (a : pyobj).
Definition column (objs : list pyobj) (c : pycol) : Prop :=
  match objs with
  | PyNil :: _ => c = PyList objs
  | _ => exists a, c = PyArray a /\ stacked objs a
  end.
