(* Model of the copy-on-write storage: RefPointer, its inner class pointer, and
   Vector.  /repo/include/tensor/refcount.h, detail/refcount.hpp, vector.h *)
From Verif Require Import Base.

Section RefCount.
Context {A : Type}.

(* Where the elements of a pointer object live: memory obtained with new[], or
   caller's memory (buffer number f, first n elements).
   refcount.hpp:66 elt_t *data_ *)
Inductive buffer :=
| Own (l : list A)
| Ext (f : nat) (n : nat).

(* class RefPointer<elt_t>::pointer, refcount.hpp:30-70.
   size_ is the length of the buffer.  references_ is an int, taken here
   without bound (M_RefInt has the int).  That complex data are allocated as
   new double[2*size] and released as cdouble (refcount.hpp:90, 45) is not
   represented. *)
Record pointer := mkP { pbuf : buffer; prefs : Z; powned : bool }.

(* Program state: every pointer object ever allocated (None once deleted),
   the caller's buffers (None once released), and the Vector variables of the
   program (None once destroyed), each holding its ref_ (refcount.h:93).
   Addresses are never reused; the C++ code only compares addresses of live
   objects (refcount.hpp:145), so reuse is not observable. *)
Record state := mkS {
  heap : list (option pointer);
  ext : list (option (list A));
  vars : list (option nat)
}.

(* dereferencing a deleted pointer object is UB, ref_-> in refcount.hpp:106-150 *)
Definition get (s : state) (a : nat) : outcome pointer :=
  match nth_error (heap s) a with Some (Some p) => Ok p | _ => UB end.

(* a store into a pointer object, refcount.hpp:55-56 *)
Definition put_heap (s : state) (a : nat) (p : option pointer) : state :=
  mkS (upd (heap s) a p) (ext s) (vars s).

(* new pointer(...): refcount.hpp:33-40, references_(1) *)
Definition new_pointer (s : state) (b : buffer) (owned : bool) : state * nat :=
  (mkS (heap s ++ [Some (mkP b 1 owned)]) (ext s) (vars s), length (heap s)).

(* the elements of a buffer, begin() to end(), refcount.hpp:59-60 *)
Definition contents (s : state) (b : buffer) : outcome (list A) :=
  match b with
  | Own l => Ok l
  | Ext f n =>
    match nth_error (ext s) f with
    | Some (Some l) => if n <=? length l then Ok (firstn n l) else UB
    | _ => UB
    end
  end.

(* pointer::clone, refcount.hpp:49-53 (and the cdouble version 93-99):
   new elt_t[size()], copy, new pointer(output, size()) with owned = true *)
Definition clone (s : state) (a : nat) : outcome (state * nat) :=
  p <- get s a ;;
  l <- contents s (pbuf p) ;;
  Ok (new_pointer s (Own l) true).

(* RefPointer::reference, refcount.hpp:116-120, with pointer::reference 55 *)
Definition reference (s : state) (a : nat) : outcome (state * nat) :=
  p <- get s a ;;
  Ok (put_heap s a (Some (mkP (pbuf p) (prefs p + 1) (powned p))), a).

(* ~pointer, refcount.hpp:43-46: delete[] data_ if owned_ *)
Definition delete_pointer (s : state) (a : nat) (p : pointer) : state :=
  let ext' := match pbuf p with
              | Ext f _ => if powned p then upd (ext s) f None else ext s
              | Own _ => ext s
              end in
  mkS (upd (heap s) a None) ext' (vars s).

(* RefPointer::dereference, refcount.hpp:122-126, pointer::dereference 56 *)
Definition dereference (s : state) (a : nat) : outcome state :=
  p <- get s a ;;
  let r := (prefs p - 1)%Z in
  if (r <=? 0)%Z then Ok (delete_pointer s a p)
  else Ok (put_heap s a (Some (mkP (pbuf p) r (powned p)))).

(* value of a variable's ref_; using a destroyed variable is UB, refcount.h:93 *)
Definition var (s : state) (h : nat) : outcome nat :=
  match nth_error (vars s) h with Some (Some a) => Ok a | _ => UB end.

(* ref_ = ..., refcount.hpp:133, 140, 147 *)
Definition set_var (s : state) (h : nat) (o : option nat) : state :=
  mkS (heap s) (ext s) (upd (vars s) h o).

(* a new RefPointer with this ref_, refcount.hpp:76-109 *)
Definition new_var (s : state) (a : nat) : state :=
  mkS (heap s) (ext s) (vars s ++ [Some a]).

(* RefPointer::appropriate, refcount.hpp:128-135 *)
Definition appropriate (s : state) (h : nat) : outcome state :=
  a <- var s h ;;
  p <- get s a ;;
  if (1 <? prefs p)%Z then
    '(s1, a') <- clone s a ;;
    s2 <- dereference s1 a ;;
    Ok (set_var s2 h (Some a'))
  else Ok s.

(* *(begin() + i) = v once the pointer is unique: writes into new[] memory or
   into the caller's memory, vector.h:63-65 *)
Definition store (s : state) (a : nat) (i : nat) (v : A) : outcome state :=
  p <- get s a ;;
  match pbuf p with
  | Own l =>
    l' <- wr l i v ;;
    Ok (put_heap s a (Some (mkP (Own l') (prefs p) (powned p))))
  | Ext f n =>
    match nth_error (ext s) f with
    | Some (Some l) =>
      if i <? n then
        l' <- wr l i v ;;
        Ok (mkS (heap s) (upd (ext s) f (Some l')) (vars s))
      else UB
    | _ => UB
    end
  end.

(* What a program can do with vectors.  [ONew l]: l is the arbitrary content
   of the uninitialised memory. *)
Inductive op :=
| ONew (l : list A)              (* Vector(index), vector.h:43 *)
| ODefault                       (* Vector(), vector.h:41 *)
| OWrap (f n : nat)              (* Vector(index, elt_t *data), vector.h:51 *)
| OCopy (h : nat)                (* Vector(const Vector&), vector.h:46 *)
| OAssign (h g : nat)            (* h = g, vector.h:47 *)
| OWrite (h i : nat) (v : A)     (* h.at(i) = v, vector.h:63-65 *)
| ORead (h i : nat)              (* h[i], vector.h:60-62 *)
| OSize (h : nat)                (* h.size(), vector.h:53-55 *)
| OResize (h : nat) (l : list A) (* h.resize(n), vector.h:56-58 *)
| ODestroy (h : nat)             (* ~Vector *)
| OPoke (f i : nat) (v : A).     (* the caller writes its own buffer *)

(* what operator[] and size() of vector.h:53-62 return *)
Inductive obs := ONone | OVal (v : A) | ONum (n : nat).

Definition step (s : state) (o : op) : outcome (state * obs) :=
  match o with
  | ONew l => (* RefPointer(size_t), refcount.hpp:81-91 *)
    let (s1, a) := new_pointer s (Own l) true in Ok (new_var s1 a, ONone)
  | ODefault => (* RefPointer(), refcount.hpp:76-79 *)
    let (s1, a) := new_pointer s (Own []) true in Ok (new_var s1 a, ONone)
  | OWrap f n => (* RefPointer(data,size,owned=false), refcount.hpp:101-104 *)
    match nth_error (ext s) f with
    | Some (Some l) =>
      if n <=? length l then
        let (s1, a) := new_pointer s (Ext f n) false in Ok (new_var s1 a, ONone)
      else UB
    | _ => UB
    end
  | OCopy h => (* refcount.hpp:106-109 *)
    a <- var s h ;; '(s1, a') <- reference s a ;; Ok (new_var s1 a', ONone)
  | OAssign h g => (* refcount.hpp:143-150 *)
    a <- var s h ;; b <- var s g ;;
    if b =? a then Ok (s, ONone)
    else s1 <- dereference s a ;;
         '(s2, b') <- reference s1 b ;;
         Ok (set_var s2 h (Some b'), ONone)
  | OWrite h i v => (* non-const begin(), refcount.h:70 *)
    s1 <- appropriate s h ;; a <- var s1 h ;; s2 <- store s1 a i v ;; Ok (s2, ONone)
  | ORead h i => (* begin_const(), refcount.h:74 *)
    a <- var s h ;; p <- get s a ;; l <- contents s (pbuf p) ;;
    v <- rd l i ;; Ok (s, OVal v)
  | OSize h =>
    a <- var s h ;; p <- get s a ;;
    Ok (s, ONum (match pbuf p with Own l => length l | Ext _ n => n end))
  | OResize h l => (* RefPointer::reallocate, refcount.hpp:137-141 *)
    a <- var s h ;; s1 <- dereference s a ;;
    let (s2, b) := new_pointer s1 (Own l) true in Ok (set_var s2 h (Some b), ONone)
  | ODestroy h => (* ~RefPointer, refcount.hpp:111-114 *)
    a <- var s h ;; s1 <- dereference s a ;; Ok (set_var s1 h None, ONone)
  | OPoke f i v =>
    match nth_error (ext s) f with
    | Some (Some l) =>
      l' <- wr l i v ;; Ok (mkS (heap s) (upd (ext s) f (Some l')) (vars s), ONone)
    | _ => UB
    end
  end.

(* a program: calls of vector.h:41-65 in order *)
Fixpoint run (s : state) (ops : list op) : outcome (state * list obs) :=
  match ops with
  | [] => Ok (s, [])
  | o :: rest =>
    '(s1, x) <- step s o ;; '(s2, xs) <- run s1 rest ;; Ok (s2, x :: xs)
  end.

(* a program starts with the caller's buffers and no vectors,
   nothing of refcount.hpp:76-104 has been called *)
Definition init (bufs : list (list A)) : state := mkS [] (map Some bufs) [].

(* ref_count(), refcount.h:86 *)
Definition ref_count (s : state) (h : nat) : outcome Z :=
  a <- var s h ;; p <- get s a ;; Ok (prefs p).

End RefCount.
Arguments buffer : clear implicits.
Arguments pointer : clear implicits.
Arguments state : clear implicits.
Arguments op : clear implicits.
Arguments obs : clear implicits.

(* class shared_ptr, refcount.h:103-113.  It declares a constructor and a
   destructor but no copy constructor: copying is memberwise, so the copy holds
   the same _ref and _value and *_ref is not incremented. *)
Section SharedPtr.

(* counters: value of the int allocated at refcount.h:106, None once deleted *)
Record spstate := mkSP { cnt : list (option Z); spvars : list (option nat) }.

Inductive spop :=
| SPNew             (* shared_ptr(T *v), refcount.h:106 *)
| SPCopy (h : nat)  (* implicit memberwise copy constructor *)
| SPDestroy (h : nat).  (* refcount.h:107 *)

Definition spstep (s : spstate) (o : spop) : outcome spstate :=
  match o with
  | SPNew => Ok (mkSP (cnt s ++ [Some 1%Z]) (spvars s ++ [Some (length (cnt s))]))
  | SPCopy h =>
    match nth_error (spvars s) h with
    | Some (Some a) => Ok (mkSP (cnt s) (spvars s ++ [Some a]))
    | _ => UB
    end
  | SPDestroy h =>
    match nth_error (spvars s) h with
    | Some (Some a) =>
      match nth_error (cnt s) a with
      | Some (Some c) =>
        let c' := (c - 1)%Z in
        Ok (mkSP (upd (cnt s) a (if (c' =? 0)%Z then None else Some c'))
                 (upd (spvars s) h None))
      | _ => UB   (* *_ref was deleted *)
      end
    | _ => UB
    end
  end.

(* a program: the calls of refcount.h:106-107 in order *)
Fixpoint sprun (s : spstate) (ops : list spop) : outcome spstate :=
  match ops with
  | [] => Ok s
  | o :: rest => s1 <- spstep s o ;; sprun s1 rest
  end.

End SharedPtr.
