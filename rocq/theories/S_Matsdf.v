(* Vocabulary for the Matlab reader of SDF files. *)
From Verif Require Import Base Spec S_Sdf.

(* A Matlab array of doubles or of complex numbers (given by their bits, in
   column-major order).  Its size has at least two numbers, and only the first
   two may be trailing ones. *)
Inductive mobj := MReal (a : tensor Z) | MComplex (a : tensor (Z * Z)).

(* the size of an array without trailing ones after the second number *)
Fixpoint strip_ones (l : list nat) : list nat :=
  match l with
  | [] => []
  | d :: l => match strip_ones l with [] => if d =? 1 then [] else [d] | l' => d :: l' end
  end.
Definition strip (ds : list nat) : list nat :=
  match ds with d1 :: d2 :: ds => d1 :: d2 :: strip_ones ds | _ => ds end.

(* What is stored under a name: the dimensions of a tensor, one element for a
   number; the contents of vectors of tensors are not loaded *)
Definition shape_of (v : value) : list nat :=
  match v with
  | VR t => map Z.to_nat (sdims t)
  | VC t => map Z.to_nat (sdims t)
  | VRs _ | VCs _ => [0]
  | _ => [1]
  end.
Definition is_complex (v : value) : bool := match v with VComplex _ _ | VC _ => true | _ => false end.
Definition reals_of (bits : Z -> Z) (v : value) : list Z :=
  match v with
  | VInt n | VSize n => [bits n]
  | VDouble w => [w]
  | VR t => selts t
  | _ => []
  end.
Definition complexes_of (v : value) : list (Z * Z) :=
  match v with VComplex re im => [(re, im)] | VC t => selts t | _ => [] end.

(* The size of the array in which k objects of dimensions ds lie one after the
   other along a new last dimension.  Numbers form a column, vectors the columns
   of a matrix; objects without elements and dimensions leave nothing. *)
Definition stack_dims (ds : list nat) (k : nat) : list nat :=
  match ds with
  | [] => [0; 0]
  | [0] => [0; 0]
  | [1] => [k; 1]
  | [n] => [n; k]
  | _ => if list_eq_dec Nat.eq_dec (strip ds) [0; 0] then [0; 0] else strip (ds ++ [k])
  end.
(* the complex numbers of a value; the imaginary part of a real one is zero *)
Definition as_complexes (bits : Z -> Z) (v : value) : list (Z * Z) :=
  if is_complex v then complexes_of v else map (fun w => (w, 0%Z)) (reals_of bits v).
(* the field for the values written under one name, in that order: complex if
   one of them is *)
Definition matlab_of (bits : Z -> Z) (vs : list value) : mobj :=
  match vs with
  | [] => MReal (mkT [0; 0] [])
  | v :: _ =>
    if existsb is_complex vs then MComplex (mkT (stack_dims (shape_of v) (length vs)) (concat (map (as_complexes bits) vs)))
    else MReal (mkT (stack_dims (shape_of v) (length vs)) (concat (map (reals_of bits) vs)))
  end.

(* the values written under a name, in that order *)
Definition values_of (rs : list (list Z * value)) (name : list Z) : list value :=
  map snd (filter (fun r => if list_eq_dec Z.eq_dec (fst r) name then true else false) rs).

(* names of fields: a letter, then letters, digits and _, up to 63 characters *)
Definition is_letter (c : Z) : bool := ((65 <=? c) && (c <=? 90) || (97 <=? c) && (c <=? 122))%Z.
Definition is_digit (c : Z) : bool := ((48 <=? c) && (c <=? 57))%Z.
Definition valid_field (n : list Z) : bool :=
  match n with
  | c :: cs => is_letter c && forallb (fun c => is_letter c || is_digit c || (c =? 95)%Z) cs && (length n <=? 63)
  | [] => false
  end.
Definition mat_name (n : list Z) : Prop := valid_field n = true /\ firstn 3 n <> [115; 100; 102]%Z.

(* arrays that Matlab can hold *)
Definition mat_shape {E} (t : stored E) : Prop :=
  Forall (fun d => 0 <= d < 2 ^ 48)%Z (sdims t) /\ (Z.of_nat (length (sdims t)) < 2 ^ 48)%Z /\ (Z.of_nat (length (selts t)) < 2 ^ 48)%Z.
Definition mat_value (v : value) : Prop :=
  match v with
  | VR t => mat_shape t
  | VC t => mat_shape t
  | VRs l => Forall mat_shape l /\ (Z.of_nat (length l) < 2 ^ 48)%Z
  | VCs l => Forall mat_shape l /\ (Z.of_nat (length l) < 2 ^ 48)%Z
  | _ => True
  end.
(* a record that both sides understand *)
Definition mat_record (r : list Z * value) : Prop :=
  ok_name (fst r) /\ mat_name (fst r) /\ ok_value (snd r) /\ mat_value (snd r).
(* values under the same name have the same dimensions; those that leave nothing
   are all real or all complex; tensors without dimensions are not repeated *)
Definition consistent (rs : list (list Z * value)) : Prop :=
  forall name v vs, values_of rs name = v :: vs ->
    Forall (fun w => shape_of w = shape_of v /\ (is_complex w = is_complex v \/ stack_dims (shape_of v) 1 <> [0; 0])) vs /\ (vs <> [] -> shape_of v <> []).
