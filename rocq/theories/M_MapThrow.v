(* Model of a solver whose function throws an exception: src/linalg/cgs.cc,
   src/linalg/eig_power.hpp, src/arpack/eigs_map_d.cc. *)
From Verif Require Import Base M_RefCount M_MapLife.

(* [n] calls of the operator, each of which returns, and what they have read,
   cgs.cc:40 and 45, eig_power.hpp:54, eigs_map_d.cc:49 and 71 *)
Fixpoint calls {A} (n : nat) (w : world A) (m : nat) : outcome (list (list (list A))) :=
  match n with 0 => Ok [] | S n => x <- apply w m ;; xs <- calls n w m ;; Ok (x :: xs) end.

(* cgs, eig_power or eigs with a function object, linalg.h:69, 132, 195, whose
   call number [n] (from 0) throws after it has read its parameters.  No solver
   has a handler: the exception leaves it before delete A of cgs.cc:62 or
   eig_power.hpp:66, and A is a plain pointer.  Simplified: that the solver gets
   as far as call number [n] is given; its own tensors, which the unwinding
   destroys, are not modelled. *)
Definition thrown {A} (n : nat) (w : world A) (f : nat) : outcome (world A * list (list (list A))) :=
  '(w, m) <- new_map w (FromFunction f) false ;;
  xs <- calls (S n) w m ;;
  Ok (w, xs).
