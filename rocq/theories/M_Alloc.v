(* Model of vectors in a program that runs out of memory: new may throw
   std::bad_alloc, and the program may catch it and go on with its vectors.
   Over M_RefCount.  /repo/include/tensor/detail/refcount.hpp, vector.h *)
From Verif Require Import Base M_RefCount.

Section Alloc.
Context {A : Type}.

(* Is there room for what one operation asks for?  Each operation allocates at
   most one array (new elt_t[n], refcount.hpp:50, 83, 90, 96, 140) and one
   pointer object (new pointer, refcount.hpp:52, 78, 83, 90, 98, 103, 140). *)
Record room := mkR { for_array : bool; for_object : bool }.

(* leaked: arrays that were allocated and that nothing refers to any more,
   an array of refcount.hpp:50, 83, 96 or 140 whose pointer object failed *)
Record xstate := mkX { st : state A; leaked : list (list A) }.

(* what the caller of vector.h:41-65 gets: a value, or std::bad_alloc *)
Inductive res := Done (x : obs A) | Threw.

(* Whether the compiler takes the memory of the object before it evaluates the
   arguments in new pointer(new elt_t[n], n) (refcount.hpp:83, 90, 140): the
   language leaves it open before C++17, and every theorem is for both. If it
   does, that memory is returned when the inner new throws. *)
Context (object_first : bool).

(* new pointer(new elt_t[n], n), refcount.hpp:83, 90 and 140: the new object, or
   the arrays lost *)
Definition new_vector (m : room) (s : state A) (l : list A) : (state A * nat) + list (list A) :=
  if for_array m && for_object m then inl (new_pointer s (Own l) true)
  else inr (if for_array m && negb object_first then [l] else []).

(* pointer::clone, refcount.hpp:49-53 and 93-99: two statements, the array first *)
Definition new_clone (m : room) (s : state A) (l : list A) : (state A * nat) + list (list A) :=
  if for_array m then
    if for_object m then inl (new_pointer s (Own l) true) else inr [l]
  else inr [].

(* An exception out of a constructor (vector.h:41, 43, 51): the variable never
   comes to life; its name is used up. *)
Definition no_var (s : state A) : state A := mkS (heap s) (ext s) (vars s ++ [None]).

(* RefPointer::appropriate, refcount.hpp:128-135: clone() throws before
   dereference() and before ref_ is changed *)
Definition xappropriate (m : room) (s : state A) (h : nat) : outcome (state A + list (list A)) :=
  a <- var s h ;;
  p <- get s a ;;
  if (1 <? prefs p)%Z then
    p' <- get s a ;;
    l <- contents s (pbuf p') ;;
    match new_clone m s l with
    | inl (s1, a') => s2 <- dereference s1 a ;; Ok (inl (set_var s2 h (Some a')))
    | inr lost => Ok (inr lost)
    end
  else Ok (inl s).

(* one operation of vector.h:41-65, as M_RefCount.step, where new may throw *)
Definition xstep (m : room) (x : xstate) (o : op A) : outcome (xstate * res) :=
  let s := st x in
  match o with
  | ONew l => (* RefPointer(size_t), refcount.hpp:81-91 *)
    match new_vector m s l with
    | inl (s1, a) => Ok (mkX (new_var s1 a) (leaked x), Done ONone)
    | inr lost => Ok (mkX (no_var s) (leaked x ++ lost), Threw)
    end
  | ODefault => (* RefPointer(), refcount.hpp:76-79 *)
    if for_object m then
      let (s1, a) := new_pointer s (Own []) true in
      Ok (mkX (new_var s1 a) (leaked x), Done ONone)
    else Ok (mkX (no_var s) (leaked x), Threw)
  | OWrap f n => (* RefPointer(data,size,owned=false), refcount.hpp:101-104 *)
    match nth_error (ext s) f with
    | Some (Some l) =>
      if n <=? length l then
        if for_object m then
          let (s1, a) := new_pointer s (Ext f n) false in
          Ok (mkX (new_var s1 a) (leaked x), Done ONone)
        else Ok (mkX (no_var s) (leaked x), Threw)
      else UB
    | _ => UB
    end
  | OWrite h i v => (* non-const begin(), refcount.h:70 *)
    r <- xappropriate m s h ;;
    match r with
    | inl s1 => a <- var s1 h ;; s2 <- store s1 a i v ;; Ok (mkX s2 (leaked x), Done ONone)
    | inr lost => Ok (mkX s (leaked x ++ lost), Threw)
    end
  | OResize h l => (* RefPointer::reallocate, refcount.hpp:137-141: dereference()
                      comes first, so ref_ is stale when new throws *)
    a <- var s h ;; s1 <- dereference s a ;;
    match new_vector m s1 l with
    | inl (s2, b) => Ok (mkX (set_var s2 h (Some b)) (leaked x), Done ONone)
    | inr lost => Ok (mkX s1 (leaked x ++ lost), Threw)
    end
  | OCopy _ | OAssign _ _ | ORead _ _ | OSize _ | ODestroy _ | OPoke _ _ _ =>
    (* no allocation: refcount.hpp:106-126, 143-150, refcount.h:74, 83 *)
    '(s1, y) <- step s o ;; Ok (mkX s1 (leaked x), Done y)
  end.

(* a program that catches every exception where it is thrown and goes on,
   calls of vector.h:41-65 *)
Fixpoint xrun (x : xstate) (prog : list (op A * room)) : outcome (xstate * list res) :=
  match prog with
  | [] => Ok (x, [])
  | (o, m) :: rest =>
    '(x1, r) <- xstep m x o ;; '(x2, rs) <- xrun x1 rest ;; Ok (x2, r :: rs)
  end.

(* before anything of refcount.hpp:76-104 has been called *)
Definition xinit (bufs : list (list A)) : xstate := mkX (init bufs) [].

End Alloc.
Arguments xstate : clear implicits.
Arguments res : clear implicits.
