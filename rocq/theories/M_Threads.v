(* Model of the copy-on-write storage when it is used from several threads.
   /repo/include/tensor/refcount.h, detail/refcount.hpp, vector.h.

   M_RefCount runs every operation on vectors as one step.  Here an operation
   is the sequence of memory accesses that the code makes: references_ is a
   plain int, refcount.hpp:68, so ++references_ is a load and a store.  The
   threads take turns access by access (sequential consistency: the C++
   standard promises even less for such races).

   Simplifications.  There is no memory of the caller (Vector(size, data)); it
   is in M_RefCount.  Allocation is one step, and every thread gets its memory
   from an arena of its own: addresses are only compared for equality. *)
From Verif Require Import Base M_RefCount.

Section Threads.
Context {A : Type}.

(* class RefPointer<elt_t>::pointer, refcount.hpp:30-70, with its elements *)
Record block := mkB { bdata : list A; brefs : Z }.

(* the address of a pointer object: arena and position.  Arena 0 has the
   objects that exist before the threads start, arena S i those of thread i.
   It is a pointer * of refcount.h:93. *)
Definition addr := (nat * nat)%type.
(* other.ref_ != ref_, refcount.hpp:145 *)
Definition addr_eqb (a b : addr) : bool := (fst a =? fst b) && (snd a =? snd b).

(* the blocks of every arena, None once deleted,
   what new and delete of refcount.hpp:78-140 manage *)
Definition mem := list (list (option block)).

(* A program as a sequence of memory accesses; X is what it returns.
   The accesses are those of refcount.hpp:30-150. *)
Inductive prog (X : Type) : Type :=
| Ret (x : X)
| Wrong                                              (* uses a destroyed variable *)
| LoadRefs (a : addr) (k : Z -> prog X)              (* reads references_ *)
| StoreRefs (a : addr) (r : Z) (k : prog X)          (* writes references_ *)
| LoadSize (a : addr) (k : nat -> prog X)            (* reads size_ *)
| LoadElt (a : addr) (i : nat) (k : A -> prog X)     (* reads data_[i] *)
| StoreElt (a : addr) (i : nat) (v : A) (k : prog X) (* writes data_[i] *)
| Alloc (l : list A) (k : addr -> prog X)            (* new pointer(new elt_t[n], n) *)
| Delete (a : addr) (k : prog X).                    (* delete ref_ *)
Arguments Ret {X} x.
Arguments Wrong {X}.
Arguments LoadRefs {X} a k.
Arguments StoreRefs {X} a r k.
Arguments LoadSize {X} a k.
Arguments LoadElt {X} a i k.
Arguments StoreElt {X} a i v k.
Arguments Alloc {X} l k.
Arguments Delete {X} a k.

(* RefPointer::reference, refcount.hpp:116-120 and 55: ++references_ *)
Definition reference_ {X} (a : addr) (k : prog X) : prog X :=
  LoadRefs a (fun r => StoreRefs a (r + 1)%Z k).

(* RefPointer::dereference, refcount.hpp:122-126 and 56: --references_ *)
Definition dereference_ {X} (a : addr) (k : prog X) : prog X :=
  LoadRefs a (fun r => StoreRefs a (r - 1)%Z
    (if (r - 1 <=? 0)%Z then Delete a k else k)).

(* the loop of std::copy in pointer::clone, refcount.hpp:51 *)
Fixpoint copy_elts {X} (a : addr) (n i : nat) (acc : list A) (k : list A -> prog X) : prog X :=
  match n with
  | 0 => k acc
  | S n' => LoadElt a i (fun v => copy_elts a n' (S i) (acc ++ [v]) k)
  end.
(* pointer::clone, refcount.hpp:49-53; nobody else sees the copy while it is
   being filled *)
Definition clone_ {X} (a : addr) (k : addr -> prog X) : prog X :=
  LoadSize a (fun n => copy_elts a n 0 [] (fun l => Alloc l k)).

(* the variables of a thread, None once destroyed, each with its ref_, refcount.h:93 *)
Definition tvars := list (option addr).
(* use of a variable, vector.h:41-65 *)
Definition with_var {X} (vs : tvars) (h : nat) (k : addr -> prog X) : prog X :=
  match nth_error vs h with Some (Some a) => k a | _ => Wrong end.

(* The operations of M_RefCount, with the same citations, as accesses. *)
Definition op_prog (vs : tvars) (o : op A) : prog (tvars * obs A) :=
  match o with
  | ONew l => Alloc l (fun a => Ret (vs ++ [Some a], ONone))
  | ODefault => Alloc [] (fun a => Ret (vs ++ [Some a], ONone))
  | OCopy h => (* refcount.hpp:106-109 *)
    with_var vs h (fun a => reference_ a (Ret (vs ++ [Some a], ONone)))
  | OAssign h g => (* refcount.hpp:143-150 *)
    with_var vs h (fun a => with_var vs g (fun b =>
      if addr_eqb b a then Ret (vs, ONone)
      else dereference_ a (reference_ b (Ret (upd vs h (Some b), ONone)))))
  | OWrite h i v => (* appropriate, refcount.hpp:128-135; then the store *)
    with_var vs h (fun a => LoadRefs a (fun r =>
      if (1 <? r)%Z then
        clone_ a (fun a' => dereference_ a (StoreElt a' i v (Ret (upd vs h (Some a'), ONone))))
      else StoreElt a i v (Ret (vs, ONone))))
  | ORead h i => with_var vs h (fun a => LoadElt a i (fun v => Ret (vs, OVal v)))
  | OSize h => with_var vs h (fun a => LoadSize a (fun n => Ret (vs, ONum n)))
  | OResize h l => (* refcount.hpp:137-141 *)
    with_var vs h (fun a => dereference_ a (Alloc l (fun b => Ret (upd vs h (Some b), ONone))))
  | ODestroy h => (* refcount.hpp:111-114 *)
    with_var vs h (fun a => dereference_ a (Ret (upd vs h None, ONone)))
  | OWrap _ _ | OPoke _ _ _ => Wrong
  end.

(* a block that is there; touching a deleted one is UB, ref_-> in refcount.hpp:106-150 *)
Definition block_at (m : mem) (a : addr) : outcome block :=
  match nth_error m (fst a) with
  | Some ar => match nth_error ar (snd a) with Some (Some b) => Ok b | _ => UB end
  | None => UB
  end.
(* a store through ref_, refcount.hpp:55-60 *)
Definition set_block (m : mem) (a : addr) (b : option block) : mem :=
  match nth_error m (fst a) with
  | Some ar => upd m (fst a) (upd ar (snd a) b)
  | None => m
  end.

(* one memory access of thread i, as listed in prog, refcount.hpp:30-150 *)
Definition access {X} (i : nat) (m : mem) (p : prog X) : outcome (mem * prog X) :=
  match p with
  | Ret x => Ok (m, Ret x)
  | Wrong => UB
  | LoadRefs a k => b <- block_at m a ;; Ok (m, k (brefs b))
  | StoreRefs a r k => b <- block_at m a ;; Ok (set_block m a (Some (mkB (bdata b) r)), k)
  | LoadSize a k => b <- block_at m a ;; Ok (m, k (length (bdata b)))
  | LoadElt a j k => b <- block_at m a ;; v <- rd (bdata b) j ;; Ok (m, k v)
  | StoreElt a j v k =>
    b <- block_at m a ;; l <- wr (bdata b) j v ;; Ok (set_block m a (Some (mkB l (brefs b))), k)
  | Alloc l k =>
    match nth_error m (S i) with
    | Some ar => Ok (upd m (S i) (ar ++ [Some (mkB l 1)]), k (S i, length ar))
    | None => UB
    end
  | Delete a k => b <- block_at m a ;; Ok (set_block m a None, k)
  end.

(* A thread: its variables, the operation it is in the middle of (if any), the
   operations to come and what it has observed. It runs operations of vector.h:41-65. *)
Record thread := mkTh {
  th_vars : tvars;
  th_cur : option (prog (tvars * obs A));
  th_todo : list (op A);
  th_obs : list (obs A)
}.

(* one step of thread i: it starts an operation, makes one access, or ends the
   operation; a finished thread does nothing, of an operation of vector.h:41-65 *)
Definition thread_step (i : nat) (m : mem) (t : thread) : outcome (mem * thread) :=
  match th_cur t with
  | None =>
    match th_todo t with
    | [] => Ok (m, t)
    | o :: rest => Ok (m, mkTh (th_vars t) (Some (op_prog (th_vars t) o)) rest (th_obs t))
    end
  | Some (Ret (vs, x)) => Ok (m, mkTh vs None (th_todo t) (th_obs t ++ [x]))
  | Some p =>
    '(m', p') <- access i m p ;;
    Ok (m', mkTh (th_vars t) (Some p') (th_todo t) (th_obs t))
  end.

(* the memory and the threads, which run vector.h:41-65 *)
Definition config := (mem * list thread)%type.

(* thread i is given the processor for one step, in the middle of vector.h:41-65 or between calls *)
Definition turn (i : nat) (c : config) : outcome config :=
  let (m, ts) := c in
  match nth_error ts i with
  | None => Ok c
  | Some t => '(m', t') <- thread_step i m t ;; Ok (m', upd ts i t')
  end.

(* a schedule lists whose turn it is, of threads that run vector.h:41-65 *)
Fixpoint exec (sched : list nat) (c : config) : outcome config :=
  match sched with
  | [] => Ok c
  | i :: rest => c' <- turn i c ;; exec rest c'
  end.

(* The program before the threads start: some vectors, which all threads see by
   const reference as their first variables; thread i runs the i-th list.
   They exist, with references_ = 1 (refcount.hpp:39). *)
Definition start (shared : list (list A)) (progs : list (list (op A))) : config :=
  (map (fun l => Some (mkB l 1)) shared :: map (fun _ => []) progs,
   map (fun p => mkTh (map (fun k => Some (0, k)) (seq 0 (length shared))) None p []) progs).

(* it has made all its calls of vector.h:41-65 *)
Definition finished (t : thread) : Prop := th_cur t = None /\ th_todo t = [].

End Threads.
Arguments block : clear implicits.
Arguments mem : clear implicits.
Arguments prog : clear implicits.
Arguments thread : clear implicits.
Arguments config : clear implicits.
Arguments Ret {A X} x.
Arguments Wrong {A X}.
Arguments LoadRefs {A X} a k.
Arguments StoreRefs {A X} a r k.
Arguments LoadSize {A X} a k.
Arguments LoadElt {A X} a i k.
Arguments StoreElt {A X} a i v k.
Arguments Alloc {A X} l k.
Arguments Delete {A X} a k.
