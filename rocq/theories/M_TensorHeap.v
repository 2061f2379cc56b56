(* Tensor operations as the sequences of calls on Vector<index> and Vector<elt>
   objects that they make, over the reference counted memory of M_RefCount and the
   plain pointers of M_Iter.  The models of M_Tensor, M_Arith and M_Range work on
   values; here two tensors may share their blocks of memory.
   include/tensor/tensor.h, detail/tensor_base.hpp, detail/tensor_ops.hpp,
   src/tensor/tensor_t_op_t.cc, tensor_view.hpp, detail/tensor_slice.hpp *)
From Verif Require Import Base Spec M_RefCount M_Iter M_Tensor M_Arith M_Range.
Local Open Scope nat_scope.

Section Heap.
Context {A : Type}.

(* Code that calls vectors and looks at what they answer.  [OnI] calls a
   Vector<index> (indices.h:32-60), [OnE] a Vector<elt> or a pointer into one.
   [NewI], [NewE] tell the number that the next vector (and pointer) will get.
   [Leave n]: the pointers from number n on go out of scope.  vector.h:33-88 *)
Inductive prog (X : Type) : Type :=
| Done (o : outcome X)
| OnI (o : op nat) (k : obs nat -> prog X)
| OnE (o : iop A) (k : obs A -> prog X)
| NewI (k : nat -> prog X)
| NewE (k : nat -> nat -> prog X)
| Leave (n : nat) (p : prog X).

(* the memory: one heap for the dimensions, one for the elements; tensor.h:291-292 *)
Record hstate := mkH { hI : state nat; hE : istate A }.

(* running code on the memory, vector.h:33-88 *)
Fixpoint hrun {X} (p : prog X) (s : hstate) : outcome (hstate * X) :=
  match p with
  | Done _ o => x <- o ;; Ok (s, x)
  | OnI _ o k => '(i, x) <- step (hI s) o ;; hrun (k x) (mkH i (hE s))
  | OnE _ o k => '(e, x) <- istep (hE s) o ;; hrun (k x) (mkH (hI s) e)
  | NewI _ k => hrun (k (length (vars (hI s)))) s
  | NewE _ k => hrun (k (length (vars (ist (hE s)))) (length (iptr (hE s)))) s
  | Leave _ n p => hrun p (mkH (hI s) (mkI (ist (hE s)) (firstn n (iptr (hE s)))))
  end.
End Heap.
Arguments prog : clear implicits.
Arguments hstate : clear implicits.
Arguments Done {A X} o.
Arguments OnI {A X} o k.
Arguments OnE {A X} o k.
Arguments NewI {A X} k.
Arguments NewE {A X} k.
Arguments Leave {A X} n p.

Section Code.
Context {A : Type}.

(* one statement after the other, tensor_base.hpp:133-139 *)
Fixpoint pbind {X Y} (p : prog A X) (f : X -> prog A Y) : prog A Y :=
  match p with
  | Done (Ok x) => f x
  | Done Abort => Done Abort
  | Done UB => Done UB
  | Done Hang => Done Hang
  | OnI o k => OnI o (fun x => pbind (k x) f)
  | OnE o k => OnE o (fun x => pbind (k x) f)
  | NewI k => NewI (fun n => pbind (k n) f)
  | NewE k => NewE (fun n m => pbind (k n m) f)
  | Leave n p => Leave n (pbind p f)
  end.
Local Notation "x <-- p ;;; q" := (pbind p (fun x => q)) (at level 61, p at next level, right associativity).
Local Notation "' pat <-- p ;;; q" := (pbind p (fun z => match z with pat => q end)) (at level 61, pat pattern, p at next level, right associativity).

(* for (i = 0; i < n; i++) body, tensor_t_op_t.cc:31-33 *)
Fixpoint loop {S} (n i : nat) (body : nat -> S -> prog A S) (s : S) : prog A S :=
  match n with
  | O => Done (Ok s)
  | Datatypes.S n' => s' <-- body i s ;;; loop n' (Datatypes.S i) body s'
  end.

(* ---- calls on Vector<index>, vector.h:41-62 ---- *)
Definition makeI (o : op nat) : prog A nat := NewI (fun h => OnI o (fun _ => Done (Ok h))).
(* vector.h:46-65 *)
Definition callI (o : op nat) : prog A unit := OnI o (fun _ => Done (Ok tt)).
(* vector.h:53-55 *)
Definition sizeI h : prog A nat := OnI (OSize h) (fun x => match x with ONum n => Done (Ok n) | _ => Done UB end).
(* vector.h:60-62 *)
Definition readI h i : prog A nat := OnI (ORead h i) (fun x => match x with OVal n => Done (Ok n) | _ => Done UB end).
(* a walk over the dimensions, as in total_size, indices.cc:38-55 *)
Definition listI h : prog A (list nat) :=
  n <-- sizeI h ;;; loop n 0 (fun i l => x <-- readI h i ;;; Done (Ok (l ++ [x]))) [].

(* ---- calls on Vector<elt>, vector.h:41-78 ---- *)
Definition makeE (o : op A) : prog A nat := NewE (fun h _ => OnE (IOp o) (fun _ => Done (Ok h))).
(* vector.h:46-65 *)
Definition callE (o : op A) : prog A unit := OnE (IOp o) (fun _ => Done (Ok tt)).
(* vector.h:53-55 *)
Definition sizeE h : prog A nat := OnE (IOp (OSize h)) (fun x => match x with ONum n => Done (Ok n) | _ => Done UB end).
(* vector.h:60-62 *)
Definition readE h i : prog A A := OnE (IOp (ORead h i)) (fun x => match x with OVal v => Done (Ok v) | _ => Done UB end).
(* begin() of a vector that may be written, vector.h:67; end() asks in the same way, vector.h:73 *)
Definition beginE h : prog A nat := NewE (fun _ p => OnE (IBegin h) (fun _ => Done (Ok p))).
(* begin() const, vector.h:68 *)
Definition cbeginE h : prog A nat := NewE (fun _ p => OnE (ICBegin h) (fun _ => Done (Ok p))).
(* a use of *it, tensor_t_op_t.cc:32 *)
Definition loadE p i : prog A A := OnE (ILoad p i) (fun x => match x with OVal v => Done (Ok v) | _ => Done UB end).
(* tensor_t_op_t.cc:32 *)
Definition storeE p i v : prog A unit := OnE (IStore p i v) (fun _ => Done (Ok tt)).
(* the code p with its local pointers, tensor_t_op_t.cc:24-34 *)
Definition locals {X} (p : prog A X) : prog A X :=
  NewE (fun _ n => x <-- p ;;; Leave n (Done (Ok x))).

(* ---- tensors: (dims_, data_), tensor.h:291-292 ---- *)
Definition thandle : Type := nat * nat.

(* Tensor(const Indices &), tensor_base.hpp:40-44 *)
Definition tensor_new (junk : nat -> A) (d : nat) : prog A thandle :=
  l <-- listI d ;;; e <-- makeE (ONew (alloc junk (total_size l))) ;;;
  d' <-- makeI (OCopy d) ;;; Done (Ok (d', e)).
(* Tensor(const Tensor &), tensor_base.hpp:120-123 *)
Definition tensor_copy (t : thandle) : prog A thandle :=
  e <-- makeE (OCopy (snd t)) ;;; d <-- makeI (OCopy (fst t)) ;;; Done (Ok (d, e)).
(* operator=, tensor_base.hpp:130-136 *)
Definition tensor_assign (t u : thandle) : prog A unit :=
  _ <-- callE (OAssign (snd t) (snd u)) ;;; callI (OAssign (fst t) (fst u)).
(* ~Tensor, tensor_base.hpp:53-56 *)
Definition tensor_drop (t : thandle) : prog A unit :=
  _ <-- callI (ODestroy (fst t)) ;;; callE (ODestroy (snd t)).
(* Tensor(const Indices &, const Tensor &), tensor_base.hpp:46-51: the elements are
   shared; also reshape(t, dims), tensor_reshape.hpp *)
Definition tensor_share (d : nat) (t : thandle) : prog A thandle :=
  e <-- makeE (OCopy (snd t)) ;;; d' <-- makeI (OCopy d) ;;;
  l <-- listI d' ;;; n <-- sizeE e ;;; _ <-- Done (assert_ (total_size l =? n)) ;;; Done (Ok (d', e)).
(* reshape(const Indices &), tensor_base.hpp:203-208 *)
Definition tensor_reshape (t : thandle) (d : nat) : prog A unit :=
  l <-- listI d ;;; n <-- sizeE (snd t) ;;; _ <-- Done (assert_ (total_size l =? n)) ;;; callI (OAssign (fst t) d).
(* operator[], tensor_base.hpp:214-217 *)
Definition tensor_get (t : thandle) (i : nat) : prog A A := readE (snd t) i.
(* at(index) = v, tensor_base.hpp:294-298 *)
Definition tensor_set (t : thandle) (i : Z) (v : A) : prog A unit :=
  n <-- sizeE (snd t) ;;; k <-- Done (normalize_index i n) ;;; callE (OWrite (snd t) k v).
(* fill_with, tensor_base.hpp:361-364 *)
Definition tensor_fill (t : thandle) (v : A) : prog A unit :=
  locals (p <-- beginE (snd t) ;;; _ <-- beginE (snd t) ;;; n <-- sizeE (snd t) ;;;
          loop n 0 (fun i _ => storeE p i v) tt).

(* a += b and a -= b, tensor_plus_t1_double.cc:25-43: begin, end, then b.begin() *)
Definition tensor_op_assign (f : A -> A -> A) (a b : thandle) : prog A unit :=
  na <-- sizeE (snd a) ;;; nb <-- sizeE (snd b) ;;; _ <-- Done (assert_ (na =? nb)) ;;;
  locals (ita <-- beginE (snd a) ;;; _ <-- beginE (snd a) ;;; itb <-- cbeginE (snd b) ;;;
          loop na 0 (fun i _ => x <-- loadE ita i ;;; y <-- loadE itb i ;;; storeE ita i (f x y)) tt).
(* calls of begin() and end() of a vector that may be written, vector.h:67-73 *)
Fixpoint begins (n h : nat) : prog A (list nat) :=
  match n with O => Done (Ok []) | S n' => p <-- beginE h ;;; ps <-- begins n' h ;;; Done (Ok (p :: ps)) end.
(* a *= b and a /= b, tensor_ops.hpp:158-171: std::transform(a.begin(), a.end(),
   b.begin(), a.begin(), f).  The arguments are evaluated in an order that the
   compiler chooses: here b.begin() comes after [before] of the three calls on a. *)
Definition tensor_transform_assign (f : A -> A -> A) (before : nat) (a b : thandle) : prog A unit :=
  da <-- listI (fst a) ;;; db <-- listI (fst b) ;;; _ <-- Done (assert_ (verify_dims_match da db)) ;;;
  n <-- sizeE (snd a) ;;;
  locals (ps <-- begins before (snd a) ;;; itb <-- cbeginE (snd b) ;;; qs <-- begins (3 - before) (snd a) ;;;
          ita <-- Done (rd (ps ++ qs) 0) ;;; dest <-- Done (rd (ps ++ qs) 2) ;;;
          loop n 0 (fun i _ => x <-- loadE ita i ;;; y <-- loadE itb i ;;; storeE dest i (f x y)) tt).
(* a op= number with a number outside a, tensor_ops.hpp:176-195.  *= and /= return
   a copy of the tensor ([returns_copy]), which is destroyed at the end. *)
Definition tensor_op_number (f : A -> A -> A) (returns_copy : bool) (a : thandle) (v : A) : prog A unit :=
  n <-- sizeE (snd a) ;;;
  _ <-- locals (p <-- beginE (snd a) ;;; _ <-- beginE (snd a) ;;; q <-- beginE (snd a) ;;;
                loop n 0 (fun i _ => x <-- loadE p i ;;; storeE q i (f x v)) tt) ;;;
  if returns_copy then c <-- tensor_copy a ;;; tensor_drop c else Done (Ok tt).
(* a op= a[k], tensor_ops.hpp:176-195: the number is a reference into the block that
   a had before begin() (functional.h:80-114 keep the reference) *)
Definition tensor_op_element (f : A -> A -> A) (a : thandle) (k : nat) : prog A unit :=
  n <-- sizeE (snd a) ;;;
  locals (r <-- cbeginE (snd a) ;;; p <-- beginE (snd a) ;;; q <-- beginE (snd a) ;;;
          loop n 0 (fun i _ => x <-- loadE p i ;;; y <-- loadE r k ;;; storeE q i (f x y)) tt).

(* a + b, a - b, a * b, a / b for one type of elements, tensor_t_op_t.cc:24-34 *)
Definition tensor_binop (f : A -> A -> A) (junk : nat -> A) (a b : thandle) : prog A thandle :=
  na <-- sizeE (snd a) ;;; nb <-- sizeE (snd b) ;;; _ <-- Done (assert_ (na =? nb)) ;;;
  out <-- tensor_new junk (fst a) ;;;
  _ <-- locals (ita <-- cbeginE (snd a) ;;; itb <-- cbeginE (snd b) ;;; dest <-- beginE (snd out) ;;;
                loop na 0 (fun i _ => x <-- loadE ita i ;;; y <-- loadE itb i ;;; storeE dest i (f x y)) tt) ;;;
  Done (Ok out).
(* unary operations, tensor_unop.cc:25-33 *)
Definition tensor_unop (f : A -> A) (junk : nat -> A) (a : thandle) : prog A thandle :=
  n <-- sizeE (snd a) ;;; out <-- tensor_new junk (fst a) ;;;
  _ <-- locals (src <-- cbeginE (snd a) ;;; dest <-- beginE (snd out) ;;;
                loop n 0 (fun i _ => x <-- loadE src i ;;; storeE dest i (f x)) tt) ;;;
  Done (Ok out).

(* ---- slices, tensor_view.hpp:42-282 ---- *)
(* limits, sizes and product of the ranges: M_Range.make_view looks at the
   dimensions and at the number of elements only; tensor_view.hpp:46-141 *)
Definition ranges_of (t : thandle) (ss : list rspec) : prog A (list Z * rng) :=
  l <-- listI (fst t) ;;; n <-- sizeE (snd t) ;;; Done (make_view (mkT l (repeat tt n)) ss).
(* Indices dims(rank) with the sizes of the ranges, tensor_view.hpp:51-53.  Negative
   sizes are not modelled: make_view does not return them for valid ranges. *)
Definition view_dims (ns : list Z) : prog A nat :=
  _ <-- Done (if forallb (Z.leb 0) ns then Ok tt else UB) ;;; makeI (ONew (map Z.to_nat ns)).
(* view(parent, dims, ranges): a copy of the vector of elements of the parent, and a
   copy of dims, whose original is destroyed; tensor_slice.hpp:42-44 *)
Definition view_make (t : thandle) (ss : list rspec) : prog A (thandle * rng) :=
  '(ns, r) <-- ranges_of t ss ;;; d <-- view_dims ns ;;;
  e <-- makeE (OCopy (snd t)) ;;; d' <-- makeI (OCopy d) ;;; _ <-- callI (ODestroy d) ;;; Done (Ok ((d', e), r)).
(* mutable_view: a reference to the vector of the parent, tensor_slice.hpp:76-78 *)
Definition mutable_view_make (t : thandle) (ss : list rspec) : prog A (nat * rng) :=
  '(ns, r) <-- ranges_of t ss ;;; d <-- view_dims ns ;;;
  d' <-- makeI (OCopy d) ;;; _ <-- callI (ODestroy d) ;;; Done (Ok (d', r)).
(* the loop of tensor_view.hpp:36-38 *)
Fixpoint slice_loop (fuel n : nat) (e : nat) (r : rng) (it k : nat) : prog A unit :=
  match n with
  | O => Done Hang
  | S n' =>
    '(j, r') <-- Done (pop fuel r) ;;;
    if (j =? nomore)%Z then Done (Ok tt)
    else if (j <? 0)%Z then Done UB
    else v <-- readE e (Z.to_nat j) ;;; _ <-- storeE it k v ;;; slice_loop fuel n' e r' it (S k)
  end.
(* Tensor u = t(ranges), tensor_view.hpp:30-40; the view is destroyed at the end *)
Definition tensor_slice (fuel : nat) (junk : nat -> A) (t : thandle) (ss : list rspec) : prog A thandle :=
  '(w, r) <-- view_make t ss ;;;
  u <-- tensor_new junk (fst w) ;;;
  r' <-- Done (reset fuel r) ;;;
  _ <-- locals (it <-- beginE (snd u) ;;; slice_loop fuel fuel (snd w) r' it 0) ;;;
  _ <-- tensor_drop w ;;; Done (Ok u).
(* t.at(ranges) = v, tensor_view.hpp:275-282 *)
Fixpoint fill_loop_h (fuel n : nat) (e : nat) (v : A) (r : rng) : prog A unit :=
  match n with
  | O => Done Hang
  | S n' =>
    '(j, r') <-- Done (pop fuel r) ;;;
    if (j =? nomore)%Z then Done (Ok tt)
    else if (j <? 0)%Z then Done UB
    else _ <-- callE (OWrite e (Z.to_nat j) v) ;;; fill_loop_h fuel n' e v r'
  end.
(* tensor_view.hpp:275-282 *)
Definition tensor_set_number (fuel : nat) (t : thandle) (ss : list rspec) (v : A) : prog A unit :=
  '(d, r) <-- mutable_view_make t ss ;;;
  r' <-- Done (reset fuel r) ;;; _ <-- fill_loop_h fuel fuel (snd t) v r' ;;; callI (ODestroy d).
(* data_.at(j) = t[i], tensor_view.hpp:270-272; the element is read before or after
   data_.at(j), see [read_first] *)
Definition copy_element (read_first : bool) (src i dst j : nat) : prog A unit :=
  if read_first
  then v <-- readE src i ;;; callE (OWrite dst j v)
  else locals (p <-- beginE dst ;;; v <-- readE src i ;;; storeE p j v).
(* tensor_view.hpp:264-273 *)
Fixpoint copy_loop_h (fuel n : nat) (read_first : bool) (src dst : nat) (r : rng) (i : nat) : prog A unit :=
  match n with
  | O => Done Hang
  | S n' =>
    '(j, r') <-- Done (pop fuel r) ;;;
    if (j =? nomore)%Z then Done (Ok tt)
    else if (j <? 0)%Z then Done UB
    else _ <-- copy_element read_first src i dst (Z.to_nat j) ;;; copy_loop_h fuel n' read_first src dst r' (S i)
  end.
(* t.at(ranges) = u, tensor_view.hpp:264-273 *)
Definition tensor_set_slice (fuel : nat) (read_first : bool) (t : thandle) (ss : list rspec) (u : thandle) : prog A unit :=
  '(d, r) <-- mutable_view_make t ss ;;;
  l <-- listI d ;;; m <-- listI (fst u) ;;; _ <-- Done (assert_ (total_size l =? total_size m)) ;;;
  r' <-- Done (reset fuel r) ;;; _ <-- copy_loop_h fuel fuel read_first (snd u) (snd t) r' 0 ;;; callI (ODestroy d).
(* tensor_view.hpp:258-261 *)
Fixpoint copy_view_loop_h (fuel n : nat) (read_first : bool) (src dst : nat) (r1 r2 : rng) : prog A unit :=
  match n with
  | O => Done Hang
  | S n' =>
    '(i, r1') <-- Done (pop fuel r1) ;;; '(j, r2') <-- Done (pop fuel r2) ;;;
    if (i =? nomore)%Z || (j =? nomore)%Z then Done (Ok tt)
    else if (i <? 0)%Z || (j <? 0)%Z then Done UB
    else _ <-- copy_element read_first src (Z.to_nat j) dst (Z.to_nat i) ;;; copy_view_loop_h fuel n' read_first src dst r1' r2'
  end.
(* t.at(ranges) = u(ranges), tensor_view.hpp:248-262: the view on the right holds a
   copy of the vector of u, also when u is t *)
Definition tensor_set_view (fuel : nat) (read_first : bool) (t : thandle) (ss : list rspec) (u : thandle) (su : list rspec) : prog A unit :=
  '(d, r1) <-- mutable_view_make t ss ;;;
  '(w, r2) <-- view_make u su ;;;
  l <-- listI d ;;; m <-- listI (fst w) ;;; _ <-- Done (assert_ (total_size l =? total_size m)) ;;;
  r1' <-- Done (reset fuel r1) ;;; r2' <-- Done (reset fuel r2) ;;;
  _ <-- copy_view_loop_h fuel fuel read_first (snd w) (snd t) r1' r2' ;;;
  _ <-- tensor_drop w ;;; callI (ODestroy d).

(* ---- statements of a program with variables of types Tensor and Indices ---- *)
(* tensor.h:60-330, indices.h:32-100 *)
Inductive stmt :=
| TIndices (l : list nat)                        (* Indices d with these elements *)
| TIndexSet (d i v : nat)                        (* d.at(i) = v *)
| TIndexCopy (d : nat)                           (* Indices e = d *)
| TIndexDrop (d : nat)
| TDimensions (t : nat)                          (* Indices d = t.dimensions() *)
| TNew (junk : nat -> A) (d : nat)               (* Tensor t(d) *)
| TCopy (t : nat)                                (* Tensor u = t *)
| TAssign (t u : nat)                            (* t = u *)
| TDrop (t : nat)
| TShare (d t : nat)                             (* Tensor u(d, t), u = reshape(t, d) *)
| TReshape (t d : nat)                           (* t.reshape(d) *)
| TGet (t i : nat)                               (* t[i] *)
| TSet (t : nat) (i : Z) (v : A)                 (* t.at(i) = v *)
| TFill (t : nat) (v : A)                        (* t.fill_with(v) *)
| TOpT (f : A -> A -> A) (t u : nat)             (* t += u, t -= u *)
| TOpTransform (f : A -> A -> A) (before t u : nat) (* t *= u, t /= u *)
| TOpNum (f : A -> A -> A) (c : bool) (t : nat) (v : A) (* t += v, ... *)
| TOpElem (f : A -> A -> A) (t k : nat)          (* t += t[k], ... *)
| TBin (f : A -> A -> A) (junk : nat -> A) (t u : nat) (* Tensor v = t + u, ... *)
| TUn (f : A -> A) (junk : nat -> A) (t : nat)   (* Tensor v = -t, ... *)
| TSlice (fuel : nat) (junk : nat -> A) (t : nat) (ss : list rspec) (* Tensor u = t(...) *)
| TSetNum (fuel : nat) (t : nat) (ss : list rspec) (v : A)          (* t.at(...) = v *)
| TSetSlice (fuel : nat) (o : bool) (t : nat) (ss : list rspec) (u : nat)  (* t.at(...) = u *)
| TSetView (fuel : nat) (o : bool) (t : nat) (ss : list rspec) (u : nat) (su : list rspec). (* t.at(...) = u(...) *)

(* the variables of the program, None once destroyed; tensor.h:291-292 *)
Record env := mkEnv { etens : list (option thandle); eind : list (option nat) }.
(* using a destroyed variable is UB, tensor.h:291-292 *)
Definition tvar (en : env) (t : nat) : prog A thandle :=
  Done (match nth_error (etens en) t with Some (Some h) => Ok h | _ => UB end).
(* indices.h:32-60 *)
Definition ivar (en : env) (d : nat) : prog A nat :=
  Done (match nth_error (eind en) d with Some (Some h) => Ok h | _ => UB end).
(* a new variable, tensor.h:291-292 *)
Definition add_t (en : env) (h : thandle) : env := mkEnv (etens en ++ [Some h]) (eind en).
(* indices.h:32-60 *)
Definition add_i (en : env) (h : nat) : env := mkEnv (etens en) (eind en ++ [Some h]).
(* a statement that changes no variable names and shows nothing, tensor.h:60-330 *)
Definition quiet (en : env) (p : prog A unit) : prog A (env * option A) := _ <-- p ;;; Done (Ok (en, None)).
(* a statement that defines a tensor, tensor.h:60-330 *)
Definition defines (en : env) (p : prog A thandle) : prog A (env * option A) := h <-- p ;;; Done (Ok (add_t en h, None)).
(* one statement: the functions above on the vectors of its variables, tensor.h:60-330 *)
Definition exec (en : env) (s : stmt) : prog A (env * option A) :=
  match s with
  | TIndices l => h <-- makeI (ONew l) ;;; Done (Ok (add_i en h, None))
  | TIndexSet d i v => h <-- ivar en d ;;; quiet en (callI (OWrite h i v))
  | TIndexCopy d => h <-- ivar en d ;;; g <-- makeI (OCopy h) ;;; Done (Ok (add_i en g, None))
  | TIndexDrop d => h <-- ivar en d ;;; _ <-- callI (ODestroy h) ;;; Done (Ok (mkEnv (etens en) (upd (eind en) d None), None))
  | TDimensions t => h <-- tvar en t ;;; g <-- makeI (OCopy (fst h)) ;;; Done (Ok (add_i en g, None))
  | TNew junk d => h <-- ivar en d ;;; defines en (tensor_new junk h)
  | TCopy t => h <-- tvar en t ;;; defines en (tensor_copy h)
  | TAssign t u => h <-- tvar en t ;;; g <-- tvar en u ;;; quiet en (tensor_assign h g)
  | TDrop t => h <-- tvar en t ;;; _ <-- tensor_drop h ;;; Done (Ok (mkEnv (upd (etens en) t None) (eind en), None))
  | TShare d t => g <-- ivar en d ;;; h <-- tvar en t ;;; defines en (tensor_share g h)
  | TReshape t d => h <-- tvar en t ;;; g <-- ivar en d ;;; quiet en (tensor_reshape h g)
  | TGet t i => h <-- tvar en t ;;; v <-- tensor_get h i ;;; Done (Ok (en, Some v))
  | TSet t i v => h <-- tvar en t ;;; quiet en (tensor_set h i v)
  | TFill t v => h <-- tvar en t ;;; quiet en (tensor_fill h v)
  | TOpT f t u => h <-- tvar en t ;;; g <-- tvar en u ;;; quiet en (tensor_op_assign f h g)
  | TOpTransform f b t u => h <-- tvar en t ;;; g <-- tvar en u ;;; quiet en (tensor_transform_assign f b h g)
  | TOpNum f c t v => h <-- tvar en t ;;; quiet en (tensor_op_number f c h v)
  | TOpElem f t k => h <-- tvar en t ;;; quiet en (tensor_op_element f h k)
  | TBin f junk t u => h <-- tvar en t ;;; g <-- tvar en u ;;; defines en (tensor_binop f junk h g)
  | TUn f junk t => h <-- tvar en t ;;; defines en (tensor_unop f junk h)
  | TSlice fuel junk t ss => h <-- tvar en t ;;; defines en (tensor_slice fuel junk h ss)
  | TSetNum fuel t ss v => h <-- tvar en t ;;; quiet en (tensor_set_number fuel h ss v)
  | TSetSlice fuel o t ss u => h <-- tvar en t ;;; g <-- tvar en u ;;; quiet en (tensor_set_slice fuel o h ss g)
  | TSetView fuel o t ss u su => h <-- tvar en t ;;; g <-- tvar en u ;;; quiet en (tensor_set_view fuel o h ss g su)
  end.
(* a program: statements in order; what t[i] showed is collected, tensor.h:60-330 *)
Fixpoint exec_all (en : env) (ss : list stmt) (s : hstate A) : outcome (hstate A * env * list (option A)) :=
  match ss with
  | [] => Ok (s, en, [])
  | x :: rest =>
    '(s1, (en1, v)) <- hrun (exec en x) s ;;
    '(s2, en2, vs) <- exec_all en1 rest s1 ;; Ok (s2, en2, v :: vs)
  end.
(* nothing allocated yet, tensor.h:60-330 *)
Definition empty_heap : hstate A := mkH (init []) (mkI (init []) []).
(* tensor.h:60-330 *)
Definition no_variables : env := mkEnv [] [].
End Code.
Arguments stmt : clear implicits.
