(* Model of linspace.  src/indices/linspace.hpp, linspace_d.cc.
   The arithmetic of the elements is a parameter: exact rational arithmetic for the
   statements of C33, IEEE double arithmetic (M_Double) for those of C81. *)
From Coq Require Export QArith.
From Verif Require Import Base Spec M_Tensor M_Arith M_Range.
Local Open Scope nat_scope.

(* The operations linspace uses: -, /, *, +, the number n - 1.0 and (double)i, linspace.hpp:36-39 *)
Record linops (A : Type) := mkLin { lsub : A -> A -> A; ldiv : A -> A -> A; lmul : A -> A -> A; ladd : A -> A -> A; lpred : nat -> A; lnat : nat -> A }.
Arguments mkLin {A}. Arguments lsub {A}. Arguments ldiv {A}. Arguments lmul {A}. Arguments ladd {A}. Arguments lpred {A}. Arguments lnat {A}.

Section Linspace.
Context {A : Type} (O : linops A).
(* do_linspace, linspace.hpp:27-46, for n >= 0.  fuel is for the slice
   assignment. *)
Definition linspace_with (fuel : nat) (junk : nat -> A) (min max : tensor A) (n : nat) : outcome (tensor A) :=
  let d := length (data min) in
  let output := new_tensor junk [d; n] in
  output <-
    (if n =? 1 then Ok min
     else if n =? 0 then Ok output
     else
       _ <- reshape max [d] ;;
       diff <- t_op_t (lsub O) junk max min ;;
       quo <- t_op_n (ldiv O) junk diff (lpred O n) ;;
       delta <- reshape quo [d] ;;
       for_ n (fun i output =>
         x <- t_op_n (lmul O) junk delta (lnat O i) ;;
         y <- t_op_t (ladd O) junk x min ;;
         assign_tensor fuel output [SFull; SSingle (Z.of_nat i)] y) output) ;;
  if d =? 1 then reshape output [n] else reshape output (dims min ++ [n]).

(* linspace(double, double, n), linspace_d.cc:26-32 *)
Definition linspace_number_with (fuel : nat) (junk : nat -> A) (min max : A) (n : nat) : outcome (tensor A) :=
  a <- set1 (new_tensor junk [1]) 0 min ;;
  b <- set1 (new_tensor junk [1]) 0 max ;;
  linspace_with fuel junk a b n.
End Linspace.

(* without rounding, (double)i, linspace.hpp:39 *)
Definition qnat (i : nat) : Q := inject_Z (Z.of_nat i).
(* linspace.hpp:36-39 *)
Definition Qlin : linops Q := mkLin Qminus Qdiv Qmult Qplus (fun n => qnat n - 1)%Q qnat.
(* linspace.hpp:27-46 *)
Definition linspace : nat -> (nat -> Q) -> tensor Q -> tensor Q -> nat -> outcome (tensor Q) := linspace_with Qlin.
(* linspace_d.cc:26-32 *)
Definition linspace_number : nat -> (nat -> Q) -> Q -> Q -> nat -> outcome (tensor Q) := linspace_number_with Qlin.
