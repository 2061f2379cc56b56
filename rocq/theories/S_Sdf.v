(* Vocabulary for SDF files.  Bytes, characters and machine words are integers:
   a byte or character is in 0..255, a word (the bits of a double, a size_t or
   a long) in 0..2^64-1. *)
From Verif Require Import Base Spec.

Definition is_byte (b : Z) : Prop := (0 <= b < 256)%Z.
Definition is_word (w : Z) : Prop := (0 <= w < 2 ^ 64)%Z.
Definition is_long (x : Z) : Prop := (- 2 ^ 63 <= x < 2 ^ 63)%Z.

(* A tensor as stored: dimensions, of the signed type index, and elements *)
Record stored (E : Type) := mkST { sdims : list Z; selts : list E }.
Arguments mkST {E} sdims selts. Arguments sdims {E} s. Arguments selts {E} s.
Definition of_tensor {E} (t : tensor E) : stored E := mkST (map Z.of_nat (dims t)) (data t).

(* What dump() accepts.  A real element is given by its 64 bits, a complex one
   by two such words. *)
Inductive value :=
| VInt (v : Z) | VSize (v : Z) | VDouble (w : Z) | VComplex (re im : Z)
| VR (t : stored Z) | VC (t : stored (Z * Z))
| VRs (l : list (stored Z)) | VCs (l : list (stored (Z * Z))).

(* the type of the variable given to load() *)
Inductive kind := KInt | KSize | KDouble | KComplex | KR | KC | KRs | KCs.
Definition kind_of (v : value) : kind :=
  match v with
  | VInt _ => KInt | VSize _ => KSize | VDouble _ => KDouble | VComplex _ _ => KComplex
  | VR _ => KR | VC _ => KC | VRs _ => KRs | VCs _ => KCs
  end.

(* The product of the dimensions, or 0 if there are none or one is negative, is
   the number of elements *)
Definition size_of (ds : list Z) : Z :=
  match ds with
  | [] => 0
  | _ => if existsb (fun d => d <? 0)%Z ds then 0 else fold_right Z.mul 1%Z ds
  end.

Definition ok_tensor {E} (elt_ok : E -> Prop) (t : stored E) : Prop :=
  Forall is_long (sdims t) /\ Forall elt_ok (selts t) /\ Z.of_nat (length (selts t)) = size_of (sdims t) /\
  (Z.of_nat (length (sdims t)) < 2 ^ 59)%Z /\ (Z.of_nat (length (selts t)) < 2 ^ 59)%Z.
Definition is_cword (c : Z * Z) : Prop := is_word (fst c) /\ is_word (snd c).

(* values a program can hold; a size_t only up to 2^53 (see C39) *)
Definition ok_value (v : value) : Prop :=
  match v with
  | VInt v => (- 2 ^ 31 <= v < 2 ^ 31)%Z
  | VSize v => (0 <= v < 2 ^ 53)%Z
  | VDouble w => is_word w
  | VComplex re im => is_word re /\ is_word im
  | VR t => ok_tensor is_word t
  | VC t => ok_tensor is_cword t
  | VRs l => Forall (ok_tensor is_word) l /\ (Z.of_nat (length l) < 2 ^ 56)%Z
  | VCs l => Forall (ok_tensor is_cword) l /\ (Z.of_nat (length l) < 2 ^ 56)%Z
  end.

(* names that fit: at most 63 characters, none of them NUL *)
Definition ok_name (n : list Z) : Prop :=
  length n <= 63 /\ Forall (fun c => is_byte c /\ c <> 0%Z) n.

(* the four kinds of records in a file: numbers are stored as tensors *)
Inductive family := Reals | Complexes | RealTensors | ComplexTensors.
Definition family_of (k : kind) : family :=
  match k with
  | KInt | KSize | KDouble | KR => Reals
  | KComplex | KC => Complexes
  | KRs => RealTensors | KCs => ComplexTensors
  end.
(* load() is given the name of the variable or no name *)
Definition asks_for (asked name : list Z) : Prop := asked = [] \/ asked = name.
