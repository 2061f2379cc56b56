(* Model of iterators and references that a program keeps: Vector::begin, begin_const,
   at and operator[] return plain pointers into the block of the moment
   (include/tensor/refcount.h:69-80, vector.h:59-78). *)
From Verif Require Import Base M_RefCount.

Section Iter.
Context {A : Type}.

(* the program state of M_RefCount, and the blocks the kept pointers point into.
   They are elt_t * returned by refcount.h:70-80. *)
Record istate := mkI { ist : state A; iptr : list nat }.

Inductive iop :=
| IOp (o : op A)                (* any operation of M_RefCount *)
| IBegin (h : nat)              (* it = h.begin(), or &h.at(0), or h.end(); refcount.h:70,80 *)
| ICBegin (h : nat)             (* it = h.begin_const(), h.end_const(); refcount.h:74-76 *)
| ILoad (k i : nat)             (* it[i] of the k-th kept pointer *)
| IStore (k i : nat) (v : A).   (* it[i] = v *)

(* the block of a kept pointer, returned earlier by refcount.h:70-80 *)
Definition ptr (s : istate) (k : nat) : outcome nat :=
  match nth_error (iptr s) k with Some a => Ok a | None => UB end.

(* one call of refcount.h:70-80, or one use of a pointer it returned, or an operation of vector.h:41-65 *)
Definition istep (s : istate) (o : iop) : outcome (istate * obs A) :=
  match o with
  | IOp o => '(s1, x) <- step (ist s) o ;; Ok (mkI s1 (iptr s), x)
  | IBegin h => s1 <- appropriate (ist s) h ;; a <- var s1 h ;; Ok (mkI s1 (iptr s ++ [a]), ONone)
  | ICBegin h => a <- var (ist s) h ;; Ok (mkI (ist s) (iptr s ++ [a]), ONone)
  | ILoad k i => (* a deleted block cannot be read *)
    a <- ptr s k ;; p <- get (ist s) a ;; l <- contents (ist s) (pbuf p) ;; v <- rd l i ;; Ok (s, OVal v)
  | IStore k i v => a <- ptr s k ;; s1 <- store (ist s) a i v ;; Ok (mkI s1 (iptr s), ONone)
  end.
(* a program: such steps in order, refcount.h:67-89 *)
Fixpoint irun (s : istate) (ops : list iop) : outcome (istate * list (obs A)) :=
  match ops with
  | [] => Ok (s, [])
  | o :: rest => '(s1, x) <- istep s o ;; '(s2, xs) <- irun s1 rest ;; Ok (s2, x :: xs)
  end.
End Iter.
Arguments istate : clear implicits.
Arguments iop : clear implicits.
