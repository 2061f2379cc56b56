(* Model of ranges and slices.
   /repo/src/views/range.cc, include/tensor/indices.h:105-206,
   src/tensor/tensor_view.hpp, include/tensor/detail/tensor_slice.hpp *)
From Verif Require Import Base Spec M_Tensor.
Local Open Scope Z_scope.

(* Range objects, indices.h:105-184.  Every object has the inherited members
   limit_ and factor_; those of a ProductRange keep their initial values 0 and 1
   (range.cc:26-29, 295-300).  ProductRange declares its own base_. *)
Inductive rng :=
| RFull (limit factor counter counter_end : Z)
| RSingle (limit factor ndx counter : Z)
| RStep (limit factor ndx start end_ step : Z)
| RIndex (limit factor : Z) (indices : list Z) (counter : nat)
| RProd (r1 r2 : rng) (base : Z).

(* what the user writes: range(), range(i), range(a,b,s), range(Indices);
   indices.h:198-206 *)
Inductive rspec :=
| SFull
| SSingle (ndx : Z)
| SStep (start end_ step : Z)
| SIndex (i : list Z).

(* constructors, range.cc:69-72, 117-120, 162-165, 211-214 *)
Definition make_range (s : rspec) : rng :=
  match s with
  | SFull => RFull 0 1 0 0
  | SSingle i => RSingle 0 1 i i
  | SStep a b st => RStep 0 1 0 a b st
  | SIndex l => RIndex 0 1 l 0
  end.

Definition nomore : Z := -1.   (* ~(index)0, indices.h:115 *)

(* get_limit, indices.h:116 *)
Definition get_limit (r : rng) : Z :=
  match r with
  | RFull l _ _ _ | RSingle l _ _ _ | RStep l _ _ _ _ _ | RIndex l _ _ _ => l
  | RProd _ _ _ => 0
  end.
(* get_factor, indices.h:117 *)
Definition get_factor (r : rng) : Z :=
  match r with
  | RFull _ f _ _ | RSingle _ f _ _ | RStep _ f _ _ _ _ | RIndex _ f _ _ => f
  | RProd _ _ _ => 1
  end.

(* C++ integer division. Used in range.cc:179-187, 224-233 *)
Definition cdiv (a b : Z) : outcome Z := if b =? 0 then UB else Ok (Z.quot a b).

(* set_factor, range.cc:86-93, 131-137, 179-187, 224-233, 295-300 *)
Fixpoint set_factor (r : rng) (factor : Z) : outcome rng :=
  match r with
  | RFull l _ _ _ => Ok (RFull l factor 0 (l * factor))
  | RSingle l old ndx c =>
    q <- cdiv ndx old ;; Ok (RSingle l factor (q * factor) c)
  | RStep l old _ start end_ step =>
    qe <- cdiv end_ old ;; qs <- cdiv step old ;; q0 <- cdiv start old ;;
    Ok (RStep l factor (q0 * factor) (q0 * factor) (qe * factor) (qs * factor))
  | RIndex l old ix _ =>
    ix' <- mapM (fun i => q <- cdiv i old ;; Ok (q * factor)) ix ;;
    Ok (RIndex l factor ix' 0)
  | RProd r1 r2 b =>
    r1' <- set_factor r1 factor ;;
    r2' <- set_factor r2 (factor * get_limit r1') ;;
    Ok (RProd r1' r2' b)
  end.

(* set_limit, range.cc:47-52, 95-100, 139-144, 189-194, 235-244, 302-306 *)
Definition set_limit (r : rng) (limit : Z) : outcome rng :=
  match r with
  | RFull _ f c _ =>
    _ <- assert_ (0 <=? limit) ;; Ok (RFull limit f c (limit * f))
  | RSingle _ f ndx c =>
    _ <- assert_ (ndx <? limit) ;; _ <- assert_ (0 <=? limit) ;; Ok (RSingle limit f ndx c)
  | RStep _ f ndx s e st =>
    _ <- assert_ (e <? limit) ;; _ <- assert_ (0 <=? limit) ;; Ok (RStep limit f ndx s e st)
  | RIndex _ f ix c =>
    _ <- assert_ (forallb (fun i => i <=? limit) ix) ;;
    _ <- assert_ (0 <=? limit) ;; Ok (RIndex limit f ix c)
  | RProd _ _ _ => Abort
  end.

(* size, range.cc:102-106, 146-150, 196-200, 246-250, 308-312 *)
Fixpoint rsize (r : rng) : outcome Z :=
  match r with
  | RFull l _ _ _ => Ok l
  | RSingle _ _ _ _ => Ok 1
  | RStep _ _ _ s e st => q <- cdiv (e - s) st ;; Ok (q + 1)
  | RIndex _ _ ix _ => Ok (Z.of_nat (length ix))
  | RProd r1 r2 _ => a <- rsize r1 ;; b <- rsize r2 ;; Ok (a * b)
  end.

(* reset, range.cc:108-112, 152-156, 202-206, 252-256, 287-293 *)
Fixpoint reset_with (popf : rng -> outcome (Z * rng)) (r : rng) : outcome rng :=
  match r with
  | RFull l f _ e => Ok (RFull l f 0 e)
  | RSingle l f n _ => Ok (RSingle l f n 0)
  | RStep l f _ s e st => Ok (RStep l f s s e st)
  | RIndex l f ix _ => Ok (RIndex l f ix 0)
  | RProd r1 r2 _ =>
    r1' <- reset_with popf r1 ;;
    r2' <- reset_with popf r2 ;;
    '(b, r2'') <- popf r2' ;;
    Ok (RProd r1' r2'' b)
  end.

(* pop, range.cc:74-84, 122-129, 167-177, 216-222, 272-285.  The do-while loop
   of ProductRange::pop consumes one unit of fuel per iteration. *)
Fixpoint pop (fuel : nat) (r : rng) : outcome (Z * rng) :=
  match fuel with
  | O => Hang
  | S k =>
    match r with
    | RFull l f c e =>
      if e <=? c then Ok (nomore, r) else Ok (c, RFull l f (c + f) e)
    | RSingle l f n c =>
      if negb (c =? 0) then Ok (nomore, r) else Ok (n, RSingle l f n (c + 1))
    | RStep l f n s e st =>
      if e <? n then Ok (nomore, r) else Ok (n, RStep l f (n + st) s e st)
    | RIndex l f ix c =>
      if (length ix <=? c)%nat then Ok (nomore, r)
      else n <- rd ix c ;; Ok (n, RIndex l f ix (S c))
    | RProd r1 r2 base =>
      if base =? nomore then Ok (base, r)
      else '(n, r1') <- pop k r1 ;;
           if negb (n =? nomore) then Ok (n + base, RProd r1' r2 base)
           else '(b, r2') <- pop k r2 ;;
                r1'' <- reset_with (pop k) r1' ;;
                pop k (RProd r1'' r2' b)
    end
  end.
(* range.cc:287-293 *)
Definition reset (fuel : nat) (r : rng) : outcome rng := reset_with (pop fuel) r.

(* product, range.cc:261-264, 314-317.  base_ is uninitialised until reset();
   every use below starts with reset(). *)
Definition product (r1 r2 : rng) : outcome rng :=
  r2' <- set_factor r2 (get_factor r1 * get_limit r1) ;;
  Ok (RProd r1 r2' 0).

(* product of several ranges, tensor_view.hpp:66 *)
Fixpoint product_all (rs : list rng) : outcome rng :=
  match rs with
  | [] => Abort
  | [r] => Ok r
  | r :: rest => p <- product_all rest ;; product r p
  end.

Section Views.
Context {A : Type}.

(* r_k->set_limit(dimension(k)) for all k, tensor_view.hpp:62-63 *)
Fixpoint set_limits (rs : list rng) (ds : list nat) : outcome (list rng) :=
  match rs, ds with
  | r :: rs', d :: ds' =>
    r' <- set_limit r (Z.of_nat d) ;; rest <- set_limits rs' ds' ;; Ok (r' :: rest)
  | _, _ => Ok []
  end.

(* Tensor::operator()(PRange...) and at(PRange...), tensor_view.hpp:46-141,
   147-242: limits, sizes, product.  With one range the tensor is treated as a
   vector of size() elements and the rank is not checked.  The six overloads
   differ only in the number of ranges, so they share one definition. *)
Definition make_view (t : tensor A) (ss : list rspec) : outcome (list Z * rng) :=
  match ss with
  | [] => Abort
  | [s] =>
    r <- set_limit (make_range s) (Z.of_nat (length (data t))) ;;
    n <- rsize r ;;
    Ok ([n], r)
  | _ =>
    _ <- assert_ (length (dims t) =? length ss)%nat ;;
    rs <- set_limits (map make_range ss) (dims t) ;;
    ns <- mapM rsize rs ;;
    r <- product_all rs ;;
    Ok (ns, r)
  end.

(* the loop of view::operator Tensor, tensor_view.hpp:36-38 *)
Fixpoint read_loop (fuel n : nat) (d : list A) (r : rng) (st : list A * nat) : outcome (list A) :=
  match n with
  | O => Hang
  | S n' =>
    '(j, r') <- pop fuel r ;;
    if j =? nomore then Ok (fst st)
    else v <- rdZ d j ;; st' <- put v st ;; read_loop fuel n' d r' st'
  end.

(* view::operator Tensor, tensor_view.hpp:30-40.  The view holds its own Vector
   copy of the parent's data (tensor_slice.hpp:37, 42-44).
   Result: dimensions (signed, as computed) and elements. *)
Definition view_to_tensor (fuel : nat) (junk : nat -> A) (d : list A) (v : list Z * rng)
  : outcome (list Z * list A) :=
  let (ds, r) := v in
  let out := alloc junk (Z.to_nat (total_sizeZ ds)) in
  r' <- reset fuel r ;;
  out' <- read_loop fuel fuel d r' (out, O) ;;
  Ok (ds, out').

(* Tensor u = t(r1,...,rn), tensor_view.hpp:30-68 *)
Definition slice (fuel : nat) (junk : nat -> A) (t : tensor A) (ss : list rspec)
  : outcome (list Z * list A) :=
  v <- make_view t ss ;; view_to_tensor fuel junk (data t) v.

(* ---- assignments, tensor_view.hpp:248-282 ---- *)

Definition store (d : list A) (j : Z) (v : A) : outcome (list A) := wrZ d j v.

(* operator=(elt_t v), 275-282, tensor_view.hpp:279-281 *)
Fixpoint fill_loop (fuel n : nat) (v : A) (r : rng) (d : list A) : outcome (list A) :=
  match n with
  | O => Hang
  | S n' =>
    '(j, r') <- pop fuel r ;;
    if j =? nomore then Ok d else d' <- store d j v ;; fill_loop fuel n' v r' d'
  end.
(* tensor_view.hpp:275-282 *)
Definition assign_scalar (fuel : nat) (t : tensor A) (ss : list rspec) (v : A) : outcome (tensor A) :=
  '(_, r) <- make_view t ss ;;
  r' <- reset fuel r ;;
  d <- fill_loop fuel fuel v r' (data t) ;;
  Ok (mkT (dims t) d).

(* operator=(const Tensor &), 264-273, from another Tensor object.  By
   copy-on-write (C01) its elements do not change during the loop. tensor_view.hpp:270-272 *)
Fixpoint copy_loop (fuel n : nat) (src : list A) (r : rng) (i : nat) (d : list A) : outcome (list A) :=
  match n with
  | O => Hang
  | S n' =>
    '(j, r') <- pop fuel r ;;
    if j =? nomore then Ok d
    else v <- rd src i ;; d' <- store d j v ;; copy_loop fuel n' src r' (S i) d'
  end.
(* tensor_view.hpp:264-273 *)
Definition assign_tensor (fuel : nat) (t : tensor A) (ss : list rspec) (u : tensor A) : outcome (tensor A) :=
  '(ds, r) <- make_view t ss ;;
  _ <- assert_ (total_sizeZ ds =? Z.of_nat (total_size (dims u))) ;;
  r' <- reset fuel r ;;
  d <- copy_loop fuel fuel (data u) r' O (data t) ;;
  Ok (mkT (dims t) d).

(* the same when the source is the very object being assigned to,
   t.at(...) = t: t[i] reads the vector that the loop is modifying, tensor_view.hpp:270-272 *)
Fixpoint copy_loop_self (fuel n : nat) (r : rng) (i : nat) (d : list A) : outcome (list A) :=
  match n with
  | O => Hang
  | S n' =>
    '(j, r') <- pop fuel r ;;
    if j =? nomore then Ok d
    else v <- rd d i ;; d' <- store d j v ;; copy_loop_self fuel n' r' (S i) d'
  end.
(* tensor_view.hpp:264-273 *)
Definition assign_self (fuel : nat) (t : tensor A) (ss : list rspec) : outcome (tensor A) :=
  '(ds, r) <- make_view t ss ;;
  _ <- assert_ (total_sizeZ ds =? Z.of_nat (total_size (dims t))) ;;
  r' <- reset fuel r ;;
  d <- copy_loop_self fuel fuel r' O (data t) ;;
  Ok (mkT (dims t) d).

(* operator=(const view &), 248-262.  The source view holds its own Vector copy,
   so writing to the destination detaches it (C01), also when both views belong
   to the same tensor. tensor_view.hpp:258-261 *)
Fixpoint copy_view_loop (fuel n : nat) (src : list A) (r1 r2 : rng) (d : list A) : outcome (list A) :=
  match n with
  | O => Hang
  | S n' =>
    '(i, r1') <- pop fuel r1 ;;
    '(j, r2') <- pop fuel r2 ;;
    if (i =? nomore) || (j =? nomore) then Ok d
    else v <- rdZ src j ;; d' <- store d i v ;; copy_view_loop fuel n' src r1' r2' d'
  end.
(* tensor_view.hpp:248-262 *)
Definition assign_view (fuel : nat) (t : tensor A) (ss : list rspec) (u : tensor A) (su : list rspec)
  : outcome (tensor A) :=
  '(ds1, r1) <- make_view t ss ;;
  '(ds2, r2) <- make_view u su ;;
  _ <- assert_ (total_sizeZ ds1 =? total_sizeZ ds2) ;;
  r1' <- reset fuel r1 ;;
  r2' <- reset fuel r2 ;;
  d <- copy_view_loop fuel fuel (data u) r1' r2' (data t) ;;
  Ok (mkT (dims t) d).

End Views.
