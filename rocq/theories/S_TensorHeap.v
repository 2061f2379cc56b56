(* Value semantics of programs with tensors: every variable has a value of its own,
   a statement changes the variable it names and no other.  The values are computed
   by the models of M_Tensor, M_Arith and M_Range. *)
From Verif Require Import Base Spec M_RefCount S_RefCount M_Iter M_Tensor M_Arith M_Range M_TensorHeap.
Local Open Scope nat_scope.

Section Values.
Context {A : Type}.

Record values := mkV { tens : list (option (tensor A)); inds : list (option (list nat)) }.
Definition tval (vs : values) (t : nat) : option (tensor A) := match nth_error (tens vs) t with Some (Some x) => Some x | _ => None end.
Definition ival (vs : values) (d : nat) : option (list nat) := match nth_error (inds vs) d with Some (Some x) => Some x | _ => None end.
Definition new_t (vs : values) (x : tensor A) : values := mkV (tens vs ++ [Some x]) (inds vs).
Definition new_i (vs : values) (l : list nat) : values := mkV (tens vs) (inds vs ++ [Some l]).
Definition set_t (vs : values) (t : nat) (x : option (tensor A)) : values := mkV (upd (tens vs) t x) (inds vs).
Definition set_i (vs : values) (d : nat) (l : option (list nat)) : values := mkV (tens vs) (upd (inds vs) d l).

Definition ok {X} (o : outcome X) : option X := match o with Ok x => Some x | _ => None end.
Definition obind {X Y} (o : option X) (f : X -> option Y) : option Y := match o with Some x => f x | None => None end.
Local Notation "x <~ o ;; q" := (obind o (fun x => q)) (at level 61, o at next level, right associativity).
Definition check (b : bool) : option unit := if b then Some tt else None.
(* the ranges of a slice that select a box of non-negative size *)
Definition proper (x : tensor A) (ss : list rspec) : bool :=
  match make_view x ss with Ok (ns, _) => forallb (Z.leb 0) ns | _ => false end.

(* None: the statement is wrong (destroyed variable, index out of range, sizes that do
   not match, a loop without end), or it is t op= t[k], which is not covered *)
Definition vstep (vs : values) (s : stmt A) : option (values * option A) :=
  match s with
  | TIndices l => Some (new_i vs l, None)
  | TIndexSet d i v => l <~ ival vs d ;; _ <~ check (i <? length l) ;; Some (set_i vs d (Some (upd l i v)), None)
  | TIndexCopy d => l <~ ival vs d ;; Some (new_i vs l, None)
  | TIndexDrop d => _ <~ ival vs d ;; Some (set_i vs d None, None)
  | TDimensions t => x <~ tval vs t ;; Some (new_i vs (dims x), None)
  | TNew junk d => l <~ ival vs d ;; Some (new_t vs (new_tensor junk l), None)
  | TCopy t => x <~ tval vs t ;; Some (new_t vs x, None)
  | TAssign t u => _ <~ tval vs t ;; y <~ tval vs u ;; Some (set_t vs t (Some y), None)
  | TDrop t => _ <~ tval vs t ;; Some (set_t vs t None, None)
  | TShare d t => l <~ ival vs d ;; x <~ tval vs t ;; _ <~ check (total_size l =? length (data x)) ;; Some (new_t vs (mkT l (data x)), None)
  | TReshape t d => x <~ tval vs t ;; l <~ ival vs d ;; _ <~ check (total_size l =? length (data x)) ;; Some (set_t vs t (Some (mkT l (data x))), None)
  | TGet t i => x <~ tval vs t ;; v <~ nth_error (data x) i ;; Some (vs, Some v)
  | TSet t i v => x <~ tval vs t ;; y <~ ok (set1 x i v) ;; Some (set_t vs t (Some y), None)
  | TFill t v => x <~ tval vs t ;; y <~ ok (fill_with x v) ;; Some (set_t vs t (Some y), None)
  | TOpT f t u => x <~ tval vs t ;; y <~ tval vs u ;; z <~ ok (op_assign_t f x y) ;; Some (set_t vs t (Some z), None)
  | TOpTransform f _ t u => x <~ tval vs t ;; y <~ tval vs u ;; z <~ ok (op_assign_t_mixed f x y) ;; Some (set_t vs t (Some z), None)
  | TOpNum f _ t v => x <~ tval vs t ;; z <~ ok (op_assign_n f x (Outside v)) ;; Some (set_t vs t (Some z), None)
  | TOpElem _ _ _ => None
  | TBin f junk t u => x <~ tval vs t ;; y <~ tval vs u ;; z <~ ok (t_op_t f junk x y) ;; Some (new_t vs z, None)
  | TUn f junk t => x <~ tval vs t ;; z <~ ok (unop f junk x) ;; Some (new_t vs z, None)
  | TSlice fuel junk t ss => x <~ tval vs t ;; _ <~ check (proper x ss) ;; z <~ ok (slice fuel junk x ss) ;; Some (new_t vs (mkT (map Z.to_nat (fst z)) (snd z)), None)
  | TSetNum fuel t ss v => x <~ tval vs t ;; _ <~ check (proper x ss) ;; z <~ ok (assign_scalar fuel x ss v) ;; Some (set_t vs t (Some z), None)
  | TSetSlice fuel _ t ss u => x <~ tval vs t ;; y <~ tval vs u ;; _ <~ check (proper x ss) ;;
      z <~ ok (if t =? u then assign_self fuel x ss else assign_tensor fuel x ss y) ;; Some (set_t vs t (Some z), None)
  | TSetView fuel _ t ss u su => x <~ tval vs t ;; y <~ tval vs u ;; _ <~ check (proper x ss && proper y su) ;;
      z <~ ok (assign_view fuel x ss y su) ;; Some (set_t vs t (Some z), None)
  end.
Fixpoint vrun (vs : values) (ss : list (stmt A)) : option (values * list (option A)) :=
  match ss with
  | [] => Some (vs, [])
  | s :: rest => z <~ vstep vs s ;; y <~ vrun (fst z) rest ;; Some (fst y, snd z :: snd y)
  end.

(* ---- what the variables of a program show in shared memory ---- *)
Definition live_tensor (en : env) (t : nat) : Prop := exists h, nth_error (etens en) t = Some (Some h).
Definition live_indices (en : env) (d : nat) : Prop := exists h, nth_error (eind en) d = Some (Some h).
(* variable t has the dimensions and the elements of x *)
Definition holds (h : hstate A) (en : env) (t : nat) (x : tensor A) : Prop :=
  exists d e, nth_error (etens en) t = Some (Some (d, e)) /\
    nth_error (seen (hI h)) d = Some (Some (Own (dims x))) /\ nth_error (seen (ist (hE h))) e = Some (Some (Own (data x))).
Definition holds_indices (h : hstate A) (en : env) (i : nat) (l : list nat) : Prop :=
  exists d, nth_error (eind en) i = Some (Some d) /\ nth_error (seen (hI h)) d = Some (Some (Own l)).
(* the tensor that a statement writes; new variables are not counted *)
Definition written (s : stmt A) : option nat :=
  match s with
  | TAssign t _ | TDrop t | TReshape t _ | TSet t _ _ | TFill t _ | TOpT _ t _ | TOpTransform _ _ t _ | TOpNum _ _ t _ | TOpElem _ t _
  | TSetNum _ t _ _ | TSetSlice _ _ t _ _ | TSetView _ _ t _ _ _ => Some t
  | _ => None
  end.
End Values.
Arguments values : clear implicits.
