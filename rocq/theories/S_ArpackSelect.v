(* Vocabulary of the properties of the selection of eigenvalues in ARPACK *)
From Coq Require Import String List Reals Permutation.
From Flocq Require Import BinarySingleNaN Core.
From Verif Require Import Base M_Double S_Double M_DoubleReduce S_DoubleReduce S_ArpackSort.
Import ListNotations.
Local Open Scope R_scope.

(* l' lists the elements of l at the places p *)
Definition picks {A} (p : list nat) (l l' : list A) : Prop := Forall2 (fun i x => nth_error l i = Some x) p l'.

(* p is a choice of k different places of a list of n elements *)
Definition choice (n k : nat) (p : list nat) : Prop := NoDup p /\ (forall i, In i p -> (i < n)%nat) /\ length p = k.

(* The k places W of l hold values that are wished, by f, at least as much as any
   other value of l *)
Definition most_wished {A} (f : A -> R) (k : nat) (l : list A) (W : list nat) : Prop :=
  choice (length l) k W /\
  forall i j x y, ~ In i W -> In j W -> nth_error l i = Some x -> nth_error l j = Some y -> f x <= f y.

(* The k places W of l hold half of the values at the low end, rounded down, and
   the others at the high end *)
Definition both_ends (k : nat) (l : list double) (W : list nat) : Prop :=
  choice (length l) k W /\ exists low high, Permutation W (low ++ high) /\ length low = (k / 2)%nat /\
    (forall i j x y, In i low -> ~ In j low -> nth_error l i = Some x -> nth_error l j = Some y -> spot x <= spot y) /\
    (forall i j x y, ~ In i high -> In j high -> nth_error l i = Some x -> nth_error l j = Some y -> spot x <= spot y).

(* what each code asks for *)
Definition wanted (which : string) (k : nat) (l : list double) (W : list nat) : Prop :=
  if String.eqb which "BE" then both_ends k l W else most_wished (wish which) k l W.
Definition real_code (w : string) : Prop := known_code w \/ w = "BE"%string.

(* The convergence test: the estimate b of the error of a value x is at most tol
   times the magnitude m of x, or times eps23 if m is smaller. *)
Definition passes (tol eps23 m b : double) : Prop :=
  (if @Bleb 53 1024 m eps23 then @Bleb 53 1024 b (dmul tol eps23) else @Bleb 53 1024 b (dmul tol m)) = true.

(* the estimate of the error of a value, relative to its magnitude m, or to eps23
   if m is smaller *)
Definition relative (eps23 m b : double) : double := ddiv b (if @Bleb 53 1024 m eps23 then eps23 else m).

(* the value at place i has converged *)
Definition converged (tol eps23 : double) (ritz bounds : list double) (i : nat) : Prop :=
  exists x b, nth_error ritz i = Some x /\ nth_error bounds i = Some b /\ passes tol eps23 (dabs x) b.

(* the first k columns of a matrix of n rows, one after the other *)
Definition columns {B} (n k : nat) (q : list B) : list (list B) := map (column n n q) (seq 0 k).
