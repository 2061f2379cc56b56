(* Vocabulary for products of tensors of doubles: what it means that a double is
   a rounded value of a sum of products. *)
From Coq Require Import Reals.
From Flocq Require Import Core BinarySingleNaN.
From Verif Require Import Base M_Double S_Double S_DoubleReduce.
Local Open Scope R_scope.

(* a list of pairs stands for the sum of the products x1 y1 + ... + xn yn *)
Definition terms : Type := list (double * double).
Definition exact (l : terms) : R := Rsum (map (fun p => value (fst p) * value (snd p)) l).
Definition exact_abs (l : terms) : R := Rsum (map (fun p => Rabs (value (fst p) * value (snd p))) l).
Definition all_finite (l : terms) : Prop := Forall (fun p => finite (fst p) /\ finite (snd p)) l.
(* what underflows of the products may add to the error *)
Definition underflow (n : nat) : R := (1 + growth (n - 1)) * INR n * tiny.

(* a finite x comes from finite factors and is close to the sum of the products *)
Definition accurate (l : terms) (x : double) : Prop :=
  finite x -> all_finite l /\ Rabs (value x - exact l) <= growth (length l) * exact_abs l + underflow (length l).
(* x is finite unless the sum of the moduli is near the largest double *)
Definition no_overflow (l : terms) (x : double) : Prop :=
  all_finite l -> (1 + growth (length l)) * exact_abs l + underflow (length l) < bpow radix2 1024 -> finite x.
(* sums of products of integers are exact up to 2^53 *)
Definition integer_pair (p : double * double) (z : Z * Z) : Prop :=
  finite (fst p) /\ value (fst p) = IZR (fst z) /\ finite (snd p) /\ value (snd p) = IZR (snd z).
Definition integer_exact (l : terms) (x : double) : Prop :=
  forall zs, Forall2 integer_pair l zs -> (fold_right Z.add 0 (map (fun p => Z.abs (fst p * snd p)) zs) <= 2 ^ 53)%Z ->
  finite x /\ value x = IZR (fold_right Z.add 0%Z (map (fun p => (fst p * snd p)%Z) zs)).
Definition rounded (l : terms) (x : double) : Prop := accurate l x /\ no_overflow l x /\ integer_exact l x.

(* complex numbers: pairs of doubles.  The real and imaginary parts of
   a1 b1 + ... + an bn are sums of 2n products of doubles *)
Definition complex : Type := double * double.
Definition dopp : double -> double := @Bopp 53 1024.
Definition real_terms (l : list (complex * complex)) : terms :=
  flat_map (fun p => [(fst (fst p), fst (snd p)); (dopp (snd (fst p)), snd (snd p))]) l.
Definition imag_terms (l : list (complex * complex)) : terms :=
  flat_map (fun p => [(fst (fst p), snd (snd p)); (snd (fst p), fst (snd p))]) l.
Definition complex_rounded (l : list (complex * complex)) (x : complex) : Prop :=
  rounded (real_terms l) (fst x) /\ rounded (imag_terms l) (snd x).
Definition cconj (x : complex) : complex := (fst x, dopp (snd x)).

(* the pairs of factors of f(0) g(0) + ... + f(l-1) g(l-1) *)
Definition pairs {A} (l : nat) (f g : nat -> A) : list (A * A) := map (fun x => (f x, g x)) (seq 0 l).
(* the C++ product never repairs a NaN to a finite number *)
Definition never_finite (f : complex -> complex -> complex) : Prop := forall x y, ~ finite (fst (f x y)) /\ ~ finite (snd (f x y)).
(* the products of the entries of a row of a sparse matrix with a vector f *)
Definition row_terms {A} (r : list (nat * A)) (f : nat -> A) : list (A * A) := map (fun e => (snd e, f (fst e))) r.
