(* Vocabulary used by the statements of the property theorems.
   Nothing here mentions the models. *)
From Verif Require Import Base.

(* A tensor value: its dimensions and its elements in storage order. *)
Record tensor (A : Type) := mkT { dims : list nat; data : list A }.
Arguments mkT {A} dims data.
Arguments dims {A} t.
Arguments data {A} t.

(* product of a list of extents *)
Definition prod (l : list nat) : nat := fold_right Nat.mul 1 l.

(* number of elements for a dimension vector; the library's default
   constructed tensor has no dimensions and no elements *)
Definition nelem (ds : list nat) : nat :=
  match ds with [] => 0 | _ => prod ds end.

(* a tensor value is well formed when it stores as many elements as its
   dimensions say *)
Definition wf {A} (t : tensor A) : Prop := length (data t) = nelem (dims t).

(* coordinates: one index per dimension, each below its extent *)
Definition valid (ds ix : list nat) : Prop := Forall2 (fun i d => i < d) ix ds.

Fixpoint validb (ds ix : list nat) : bool :=
  match ds, ix with
  | [], [] => true
  | d :: ds', i :: ix' => (i <? d) && validb ds' ix'
  | _, _ => false
  end.

(* column-major position: the first index varies fastest *)
Fixpoint lin (ds ix : list nat) : nat :=
  match ds, ix with
  | d :: ds', i :: ix' => i + d * lin ds' ix'
  | _, _ => 0
  end.

(* the element with coordinates ix, if they are in range *)
Definition elt {A} (t : tensor A) (ix : list nat) : option A :=
  if validb (dims t) ix then nth_error (data t) (lin (dims t) ix) else None.

(* Two tensors agree: same shape, same elements *)
Definition same_elts {A} (t u : tensor A) : Prop :=
  dims t = dims u /\ forall ix, valid (dims t) ix -> elt t ix = elt u ix.

(* ---- element arithmetic -------------------------------------------- *)

(* Operations on numbers, as used by the arithmetic functions.  The element
   types of the library are double and complex double. *)
Record numops (A : Type) := mkNum {
  nzero : A; none_ : A;
  nadd : A -> A -> A;
  nmul : A -> A -> A;
  nconj : A -> A
}.
Arguments mkNum {A} nzero none_ nadd nmul nconj.
Arguments nzero {A} n.
Arguments none_ {A} n.
Arguments nadd {A} n _ _.
Arguments nmul {A} n _ _.
Arguments nconj {A} n _.

(* Laws of exact arithmetic: a commutative semiring with a ring involution. *)
Record numlaws {A} (N : numops A) : Prop := {
  add_comm : forall x y, nadd N x y = nadd N y x;
  add_assoc : forall x y z, nadd N x (nadd N y z) = nadd N (nadd N x y) z;
  add_0_l : forall x, nadd N (nzero N) x = x;
  mul_comm : forall x y, nmul N x y = nmul N y x;
  mul_assoc : forall x y z, nmul N x (nmul N y z) = nmul N (nmul N x y) z;
  mul_1_l : forall x, nmul N (none_ N) x = x;
  mul_0_l : forall x, nmul N (nzero N) x = nzero N;
  mul_add_l : forall x y z, nmul N (nadd N x y) z = nadd N (nmul N x z) (nmul N y z);
  conj_add : forall x y, nconj N (nadd N x y) = nadd N (nconj N x) (nconj N y);
  conj_mul : forall x y, nconj N (nmul N x y) = nmul N (nconj N x) (nconj N y);
  conj_conj : forall x, nconj N (nconj N x) = x
}.

(* integers: real numbers' stand-in in examples; conjugation is the identity *)
Definition Znum : numops Z := mkNum 0%Z 1%Z Z.add Z.mul (fun x => x).

(* Gaussian integers: complex numbers' stand-in in examples *)
Definition Gnum : numops (Z * Z) :=
  mkNum (0, 0)%Z (1, 0)%Z
    (fun x y => (fst x + fst y, snd x + snd y)%Z)
    (fun x y => (fst x * fst y - snd x * snd y, fst x * snd y + snd x * fst y)%Z)
    (fun x => (fst x, - snd x)%Z).

Lemma Znum_laws : numlaws Znum.
Proof. constructor; intros; cbv beta iota delta [Znum nadd nmul nconj nzero none_]; ring. Qed.

Lemma Gnum_laws : numlaws Gnum.
Proof.
  constructor; intros; repeat match goal with x : (Z * Z)%type |- _ => destruct x end;
    cbv beta iota delta [Gnum fst snd nadd nmul nconj nzero none_]; f_equal; ring.
Qed.

(* sum of f 0, ..., f (n-1) *)
Fixpoint sum_n {A} (N : numops A) (n : nat) (f : nat -> A) : A :=
  match n with
  | 0 => nzero N
  | S k => nadd N (sum_n N k f) (f k)
  end.

(* ---- signed coordinates --------------------------------------------- *)

(* the signed index i designates position p in a dimension of extent d:
   i counts from the beginning, or, when negative, from the end *)
Definition coord (d : nat) (i : Z) (p : nat) : Prop :=
  p < d /\ (i = Z.of_nat p \/ i = Z.of_nat p - Z.of_nat d)%Z.

Fixpoint coords (ds : list nat) (ix : list Z) (ps : list nat) : Prop :=
  match ds, ix, ps with
  | [], [], [] => True
  | d :: ds', i :: ix', p :: ps' => coord d i p /\ coords ds' ix' ps'
  | _, _, _ => False
  end.
