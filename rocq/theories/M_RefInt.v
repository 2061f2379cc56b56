(* The reference counter of M_RefCount as what it is in the code: a 32-bit
   signed int (refcount.hpp:68), read back as a size_t (refcount.h:86). *)
From Verif Require Import Base M_RefCount.

(* the result of ++references_ and --references_, refcount.hpp:55-56: an int
   that does not fit is undefined behaviour; [wraps] is the machine on which the
   compiler emits a plain 32-bit addition instead *)
Definition int_result (wraps : bool) (z : Z) : outcome Z :=
  if ((- 2 ^ 31 <=? z) && (z <? 2 ^ 31))%Z then Ok z
  else if wraps then Ok ((z + 2 ^ 31) mod 2 ^ 32 - 2 ^ 31)%Z
  else UB.

Section RefInt.
Context {A : Type}.
Implicit Types s : state A.

(* RefPointer::reference, refcount.hpp:116-120, with pointer::reference 55 *)
Definition reference_int (wraps : bool) s (a : nat) : outcome (state A * nat) :=
  p <- get s a ;;
  r <- int_result wraps (prefs p + 1) ;;
  Ok (put_heap s a (Some (mkP (pbuf p) r (powned p))), a).

(* RefPointer::dereference, refcount.hpp:122-126, pointer::dereference 56 *)
Definition dereference_int (wraps : bool) s (a : nat) : outcome (state A) :=
  p <- get s a ;;
  r <- int_result wraps (prefs p - 1) ;;
  if (r <=? 0)%Z then Ok (delete_pointer s a p)
  else Ok (put_heap s a (Some (mkP (pbuf p) r (powned p)))).

(* size_t ref_count(), refcount.h:86: the conversion of the int *)
Definition ref_count_int (p : pointer A) : Z := (prefs p mod 2 ^ 64)%Z.

(* RefPointer::appropriate, refcount.hpp:128-135 *)
Definition appropriate_int (wraps : bool) s (h : nat) : outcome (state A) :=
  a <- var s h ;;
  p <- get s a ;;
  if (1 <? ref_count_int p)%Z then
    '(s1, a') <- clone s a ;;
    s2 <- dereference_int wraps s1 a ;;
    Ok (set_var s2 h (Some a'))
  else Ok s.

(* the operations of vector.h:41-65 with the int counter *)
Definition step_int (wraps : bool) s (o : op A) : outcome (state A * obs A) :=
  match o with
  | OCopy h => (* refcount.hpp:106-109 *)
    a <- var s h ;; '(s1, a') <- reference_int wraps s a ;; Ok (new_var s1 a', ONone)
  | OAssign h g => (* refcount.hpp:143-150 *)
    a <- var s h ;; b <- var s g ;;
    if b =? a then Ok (s, ONone)
    else s1 <- dereference_int wraps s a ;;
         '(s2, b') <- reference_int wraps s1 b ;;
         Ok (set_var s2 h (Some b'), ONone)
  | OWrite h i v => (* refcount.h:70 *)
    s1 <- appropriate_int wraps s h ;; a <- var s1 h ;; s2 <- store s1 a i v ;; Ok (s2, ONone)
  | OResize h l => (* refcount.hpp:137-141 *)
    a <- var s h ;; s1 <- dereference_int wraps s a ;;
    let (s2, b) := new_pointer s1 (Own l) true in Ok (set_var s2 h (Some b), ONone)
  | ODestroy h => (* refcount.hpp:111-114 *)
    a <- var s h ;; s1 <- dereference_int wraps s a ;; Ok (set_var s1 h None, ONone)
  | ONew _ | ODefault | OWrap _ _ | ORead _ _ | OSize _ | OPoke _ _ _ => step s o
  end.

(* a program: calls of vector.h:41-65 in order *)
Fixpoint run_int (wraps : bool) s (ops : list (op A)) : outcome (state A * list (obs A)) :=
  match ops with
  | [] => Ok (s, [])
  | o :: rest =>
    '(s1, x) <- step_int wraps s o ;; '(s2, xs) <- run_int wraps s1 rest ;; Ok (s2, x :: xs)
  end.

End RefInt.
