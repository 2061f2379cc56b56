(* Vocabulary for comparisons, boolean vectors and index vectors. *)
From Verif Require Import Base Spec.

(* the six comparison operators *)
Inductive cmpop := OpEq | OpNe | OpLt | OpLe | OpGt | OpGe.

(* their meaning on integers *)
Definition holds (op : cmpop) (x y : Z) : Prop :=
  match op with
  | OpEq => x = y | OpNe => x <> y
  | OpLt => x < y | OpLe => x <= y
  | OpGt => x > y | OpGe => x >= y
  end%Z.

(* positions in strictly increasing order *)
Fixpoint increasing (l : list nat) : Prop :=
  match l with
  | x :: ((y :: _) as tl) => x < y /\ increasing tl
  | _ => True
  end.

(* the arithmetic progression a, a+s, ..., with n elements *)
Definition progression (a s : Z) (n : nat) : list Z := map (fun k => (a + s * Z.of_nat k)%Z) (seq 0 n).
