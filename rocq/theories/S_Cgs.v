(* Vocabulary of the properties of the iterative solvers. *)
From Verif Require Import Base Spec S_Fold S_Expm.
Local Open Scope nat_scope.

Section Vectors.
Context {A : Type} (N : numops A) (K : fieldops A) (n : nat).
Definition vec := nat -> A.
(* the scalar product of two vectors of n entries *)
Definition dot (u v : vec) : A := sum_n N n (fun i => nmul N (u i) (nconj N (v i))).
(* a matrix applied to a vector *)
Definition app (a : nat -> nat -> A) (v : vec) : vec := fun i => sum_n N n (fun k => nmul N (a i k) (v k)).
Definition nonzero_vec (v : vec) : Prop := exists i, i < n /\ v i <> nzero N.

(* the method of conjugate gradients for a x = b from x0: the approximation and
   the direction after k steps *)
Context (a : nat -> nat -> A) (b x0 : vec).
Definition residual (x : vec) : vec := fun i => fsub K (b i) (app a x i).
Fixpoint cg (k : nat) : vec * vec :=
  match k with
  | 0 => (x0, residual x0)
  | S k =>
    let '(x, p) := cg k in
    let r := residual x in
    let x' := fun i => nadd N (x i) (nmul N (fdiv K (dot r r) (dot p (app a p))) (p i)) in
    let r' := residual x' in
    (x', fun i => nadd N (r' i) (nmul N (fdiv K (dot r' r') (dot r r)) (p i)))
  end.
Definition cg_x (k : nat) : vec := fst (cg k).
Definition cg_p (k : nat) : vec := snd (cg k).
Definition cg_r (k : nat) : vec := residual (cg_x k).

(* conj(a i k) = a k i *)
Definition hermitian : Prop := forall i k, i < n -> k < n -> nconj N (a i k) = a k i.
End Vectors.

(* the elements of a tensor, in the order of storage *)
Definition entry {A} (N : numops A) (t : tensor A) (i : nat) : A := nth i (data t) (nzero N).
(* f, on tensors of dimensions ds, is the linear map of the matrix a *)
Definition linear_map {A} (N : numops A) (f : tensor A -> outcome (tensor A)) (ds : list nat) (a : nat -> nat -> A) : Prop :=
  forall t, wf t -> dims t = ds ->
    exists u, f t = Ok u /\ wf u /\ dims u = ds /\ forall i, i < nelem ds -> entry N u i = app N (nelem ds) a (entry N t) i.

(* a applied j times to v *)
Fixpoint power_vec {A} (N : numops A) (n : nat) (a : nat -> nat -> A) (v : nat -> A) (j : nat) : nat -> A :=
  match j with 0 => v | S j => app N n a (power_vec N n a v j) end.
(* u is a unit vector and a multiple of v *)
Definition unit_along {A} (N : numops A) (n : nat) (v u : nat -> A) : Prop :=
  dot N n u u = none_ N /\ exists c, forall i, i < n -> u i = nmul N c (v i).
(* the square root computed for v is the square root of <v, v> *)
Definition root_ok {A R} (N : numops A) (n : nat) (rre : A -> R) (rsqrt : R -> R) (inj : R -> A) (v : nat -> A) : Prop :=
  nmul N (inj (rsqrt (rre (dot N n v v)))) (inj (rsqrt (rre (dot N n v v)))) = dot N n v v.
