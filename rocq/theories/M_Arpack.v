(* Model of the iterative eigenvalue solver: the ARPACK object,
   src/arpack/arpack_t.cc, and eigs, src/arpack/eigs_d.cc, eigs_z.cc,
   eigs_map_d.cc, eigs_map_z.cc, eigs_sp_d.cc, eigs_sp_z.cc *)
From Verif Require Import Base Spec M_Tensor M_Arith M_Range M_Fold M_Reduce M_BlockSvd M_Eig S_Sparse M_Sparse S_Arpack.
From Coq Require Import String List.
Import ListNotations.
Local Open Scope nat_scope.

(* ARPACK::Status, arpack_d.h:37-45 *)
Inductive status := Uninitialized | Initialized | Running | Finished | Error | TooManyIterations | NoConvergence.
(* arpack_d.h:37-45 *)
Definition status_int (s : status) : nat :=
  match s with Uninitialized => 0 | Initialized => 1 | Running => 2 | Finished => 3 | Error => 4 | TooManyIterations => 5 | NoConvergence => 6 end.
(* the comparisons of arpack_t.cc:133, 138, 246 *)
Definition status_lt (x y : status) : bool := status_int x <? status_int y.

Section Arpack.
(* E: elements; T: the type of the tolerance; S: what only the library reads *)
Context {E S T : Type} (N : numops E) (real_problem : bool) (default_tol : T).
(* The library.  aupd: saupp or caupp, called with the parameters and what it
   reads and writes.  eupd: seupp or ceupp, called with the parameters, whether
   vectors are wanted, what aupd left, the room for the values (nev + 1) and for
   the vectors; it returns info, the values and the vectors. *)
Context (aupd : problem T -> io E S -> io E S).
Context (eupd : problem T -> bool -> io E S -> list E -> list E -> Z * list E * list E).
(* uninitialised memory *)
Context (junk : nat -> E) (junk_state : S).

(* the part of the object that is modelled, arpack_d.h:71-111 *)
Record object := mkObj { ob_status : status; ob_problem : problem T; ob_io : io E S }.

(* the codes, arpack_t.cc:28-30; NULL is the empty string *)
Definition whichs : list string :=
  if real_problem then ["LM"; "SM"; "LA"; "SA"; ""; ""]%string else ["LM"; "SM"; "LR"; "SR"; "LI"; "SI"]%string.

(* the constructor, arpack_t.cc:25-116.  [_t] is the integer given by the user.
   The sizes do not overflow.  ceil(2.0*n/ncv) is computed exactly. *)
Definition arpack_new (n : nat) (_t : Z) (nev : nat) : outcome object :=
  _ <- assert_ (negb (real_problem && ((_t =? 4)%Z || (_t =? 5)%Z))) ;;
  _ <- assert_ (negb ((_t <? 0)%Z || (6 <? _t)%Z)) ;;
  which <- rdZ whichs _t ;;
  _ <- assert_ (negb ((nev =? 0) || (n - 1 <? nev))) ;;
  let ncv := Nat.min (Nat.max (2 * nev) 20) n in
  let maxit := Nat.max 300 ((2 * n + Nat.max ncv 1 - 1) / Nat.max ncv 1) in
  let lworkl := if real_problem then ncv * (ncv + 8) else ncv * (3 * ncv + 5) in
  Ok (mkObj Initialized (mkProblem n which nev default_tol ncv maxit lworkl)
        (mkIO junk_state 0%Z 0%Z (alloc junk n) (alloc junk (n * 3)) 0%Z 0%Z)).

(* update, arpack_t.cc:131-177 *)
Definition update (o : object) : outcome object :=
  if status_lt (ob_status o) Initialized then Ok (mkObj Error (ob_problem o) (ob_io o)) else
  if status_lt Running (ob_status o) then Ok (mkObj Error (ob_problem o) (ob_io o)) else
  let s := aupd (ob_problem o) (ob_io o) in
  let st :=
    if (io_ido s =? 99)%Z then
      if (io_info s =? 1)%Z then Ok TooManyIterations
      else if (0 <? io_info s)%Z then Ok NoConvergence
      else if (io_info s <? 0)%Z then Abort
      else Ok Finished
    else if negb (io_ido s =? 1)%Z && negb (io_ido s =? -1)%Z then Ok Error
    else Ok Running in
  st <- st ;; Ok (mkObj st (ob_problem o) s).

(* n elements read from, or written to, position [off] of an array.
   As in arpack_t.cc:251, 281-305 *)
Definition read_block (l : list E) (off : Z) (n : nat) : outcome (list E) :=
  mapM (fun i => rdZ l (off + Z.of_nat i)%Z) (seq 0 n).
(* memcpy of arpack_t.cc:251, 305 *)
Definition write_block (l : list E) (off : Z) (n : nat) (src : list E) : outcome (list E) :=
  for_ n (fun i l => x <- rd src i ;; wrZ l (off + Z.of_nat i)%Z x) l.

(* get_x_vector, get_y_vector, arpack_t.cc:275-291: an offset into workd *)
Definition get_x_vector (o : object) : outcome Z :=
  match ob_status o with Running => Ok (io_x (ob_io o) - 1)%Z | _ => Abort end.
(* arpack_t.cc:284-291 *)
Definition get_y_vector (o : object) : outcome Z :=
  match ob_status o with Running => Ok (io_y (ob_io o) - 1)%Z | _ => Abort end.
(* an update of workd, arpack_t.cc:305 *)
Definition with_workd (o : object) (w : list E) : object :=
  let s := ob_io o in
  mkObj (ob_status o) (ob_problem o) (mkIO (io_state s) (io_ido s) (io_info s) (io_resid s) w (io_x s) (io_y s)).

(* get_x, arpack_t.cc:293-296, as a value: workd does not change while the
   result is in use by eigs *)
Definition get_x (o : object) : outcome (tensor E) :=
  off <- get_x_vector o ;;
  d <- read_block (io_workd (ob_io o)) off (p_n (ob_problem o)) ;;
  Ok (mkT [p_n (ob_problem o)] d).
(* set_y, arpack_t.cc:303-306 *)
Definition set_y (o : object) (y : tensor E) : outcome object :=
  off <- get_y_vector o ;;
  w <- write_block (io_workd (ob_io o)) off (p_n (ob_problem o)) (data y) ;;
  Ok (with_workd o w).

(* set_start_vector, arpack_t.cc:245-252, from the elements of a tensor *)
Definition set_start_vector (o : object) (v : list E) : outcome object :=
  _ <- assert_ (status_lt (ob_status o) Running) ;;
  let s := ob_io o in
  r <- write_block (io_resid s) 0 (p_n (ob_problem o)) v ;;
  Ok (mkObj (ob_status o) (ob_problem o) (mkIO (io_state s) (io_ido s) 1%Z r (io_workd s) (io_x s) (io_y s))).
(* set_tolerance, arpack_t.cc:258-264 *)
Definition set_tolerance (o : object) (tol : T) : outcome object :=
  _ <- assert_ (status_lt (ob_status o) Running) ;;
  let p := ob_problem o in
  Ok (mkObj (ob_status o) (mkProblem (p_n p) (p_which p) (p_nev p) tol (p_ncv p) (p_maxit p) (p_lworkl p)) (ob_io o)).
(* set_maxiter, arpack_t.cc:266-273 *)
Definition set_maxiter (o : object) (maxit : nat) : outcome object :=
  _ <- assert_ (status_lt (ob_status o) Running) ;;
  let p := ob_problem o in
  Ok (mkObj (ob_status o) (mkProblem (p_n p) (p_which p) (p_nev p) (p_tol p) (p_ncv p) maxit (p_lworkl p)) (ob_io o)).

(* get_data, arpack_t.cc:179-243 *)
Definition get_data (fuel : nat) (o : object) (want : bool) : outcome (tensor E * option (tensor E)) :=
  let p := ob_problem o in
  let vectors := new_tensor junk [p_n p; p_nev p] in
  let output := new_tensor junk [p_nev p + 1] in
  let '(info, d, z) := eupd p want (ob_io o) (data output) (if want then data vectors else []) in
  _ <- assert_ (info =? 0)%Z ;;
  v <- slice_t fuel junk (mkT [p_nev p + 1] d) [SStep 0 (Z.of_nat (p_nev p) - 1) 1] ;;
  Ok (v, if want then Some (mkT [p_n p; p_nev p] z) else None).

(* the loop while (data.update() < Finished) { ... }, eigs_d.cc:70-73,
   eigs_map_d.cc:70-72; [step] is its body *)
Fixpoint drive (fuel : nat) (step : object -> outcome object) (o : object) : outcome object :=
  match fuel with
  | 0 => Hang
  | Datatypes.S fuel =>
    o <- update o ;;
    if status_lt (ob_status o) Finished then o <- step o ;; drive fuel step o else Ok o
  end.

(* blas::gemv('N', n, n, 1.0, A, n, x, 1, 0.0, y, 1), gemv.cc: y = A x, where x
   and y are blocks of workd, which may not overlap. Called in eigs_d.cc:71-72 *)
Definition gemv (n : nat) (a w : list E) (x y : Z) : outcome (list E) :=
  if (x <? y + Z.of_nat n)%Z && (y <? x + Z.of_nat n)%Z then UB else
  xs <- read_block w x n ;;
  ys <- mapM (fun i => for_ n (fun j s => u <- rd a (i + n * j) ;; v <- rd xs j ;; Ok (nadd N s (nmul N u v))) (nzero N)) (seq 0 n) ;;
  write_block w y n ys.
(* the body of the loop of eigs_d.cc:70-73 *)
Definition dense_step (n : nat) (A : tensor E) (o : object) : outcome object :=
  x <- get_x_vector o ;;
  y <- get_y_vector o ;;
  w <- gemv n (data A) (io_workd (ob_io o)) x y ;;
  Ok (with_workd o w).
(* the body of the loop of eigs_map_d.cc:70-72 *)
Definition map_step (f : tensor E -> outcome (tensor E)) (o : object) : outcome object :=
  x <- get_x o ;; y <- f x ;; set_y o y.

(* What eigs returns: the values, *eigenvectors, *converged.  [vectors]: null or
   the tensor that is there; [conv]: whether converged is not null. eigs_d.cc:28-30 *)
Definition answer : Type := (tensor E * option (tensor E) * option bool)%type.
(* eigs_d.cc:75-76, 80-81 *)
Definition ask_converged (conv value : bool) : option bool := if conv then Some value else None.

(* the iterative part of eigs, eigs_d.cc:65-87, and of do_eigs,
   eigs_map_d.cc:65-86 *)
Definition eigs_iterative (fuel : nat) (step : object -> outcome object) (n : nat) (eig_type : Z) (neig : nat)
  (vectors : option (tensor E)) (conv : bool) : outcome answer :=
  o <- arpack_new n eig_type neig ;;
  o <- match vectors with
       | Some v => if n <=? List.length (data v) then set_start_vector o (data v) else Ok o
       | None => Ok o
       end ;;
  o <- drive fuel step o ;;
  match ob_status o with
  | Finished =>
    '(v, z) <- get_data fuel o (match vectors with Some _ => true | None => false end) ;;
    Ok (v, z, ask_converged conv true)
  | _ =>
    if conv then z <- zeros N junk [neig] ;; Ok (z, vectors, Some false) else Abort
  end.
End Arpack.

(* EigType from the integer of the user; the switch of sort_values,
   arpack_t.cc:308-333, does nothing for other integers *)
Definition eigtype_of (t : Z) : option eigtype :=
  if (t =? 0)%Z then Some LargestMagnitude else if (t =? 1)%Z then Some SmallestMagnitude else if (t =? 2)%Z then Some LargestReal
  else if (t =? 3)%Z then Some SmallestReal else if (t =? 4)%Z then Some LargestImaginary else if (t =? 5)%Z then Some SmallestImaginary else None.

Section Eigs.
Context {E R C S T : Type} (N : numops E) (real_problem : bool) (default_tol : T).
Context (aupd : problem T -> io E S -> io E S).
Context (eupd : problem T -> bool -> io E S -> list E -> list E -> Z * list E * list E).
Context (junk : nat -> E) (junk_state : S).
(* complex numbers, for the small matrices *)
Context (proj : C -> E) (to_c : E -> C) (re im modulus : C -> R) (neg : R -> R) (lt : R -> R -> bool).
Context (std_sort_ix : (nat -> nat -> bool) -> list nat -> list nat) (junkc : nat -> C).
Context (eigE : tensor E -> bool -> bool -> outcome (tensor C * option (tensor C) * option (tensor C))).
Context (eigC : tensor C -> bool -> bool -> outcome (tensor C * option (tensor C) * option (tensor C))).

(* eigs(RTensor, ...), eigs_d.cc:28-87; eigs(CTensor, ...), eigs_z.cc:32-91.
   The part for small matrices is that of M_Eig.  With an integer that is no
   EigType no indices are sorted and the copy of eigs_d.cc:55 reads what is not
   there. *)
Definition eigs_full (fuel : nat) (A : tensor E) (eig_type : Z) (neig : nat) (vectors : option (tensor E)) (conv : bool)
  : outcome (@answer E) :=
  let want := match vectors with Some _ => true | None => false end in
  n <- dimension A 1 ;;
  _ <- assert_ (List.length (dims A) =? 2) ;;
  rows <- dimension A 0 ;;
  _ <- assert_ (rows =? n) ;;
  _ <- assert_ (negb ((n <? neig) || (neig =? 0))) ;;
  if n <=? 4 then
    match eigtype_of eig_type with
    | Some t =>
      '(v, z) <- eigs proj real_problem re im modulus neg lt std_sort_ix junkc (fun _ _ _ => UB) eigE fuel A t neig want ;;
      Ok (v, z, ask_converged conv true)
    | None => _ <- eigE A false want ;; UB
    end
  else eigs_iterative N real_problem default_tol aupd eupd junk junk_state fuel (dense_step N n A) n eig_type neig vectors conv.

(* the matrix of a map, eigs_map_d.cc:45-50, eigs_map_z.cc:44-49 *)
Definition map_matrix (fuel : nat) (f : tensor E -> outcome (tensor E)) (n : nat) : outcome (tensor C) :=
  for_ n (fun i M =>
    v <- zeros N junk [n] ;;
    v <- set1 v (Z.of_nat i) (none_ N) ;;
    y <- f v ;;
    assign_tensor fuel M [SFull; SSingle (Z.of_nat i)] (to_complex to_c y)) (new_tensor junkc [n; n]).

(* do_eigs, eigs_map_d.cc:28-86, eigs_map_z.cc:27-85.  The object A is not
   deleted. *)
Definition do_eigs (fuel : nat) (f : tensor E -> outcome (tensor E)) (n : nat) (eig_type : Z) (neig : nat)
  (vectors : option (tensor E)) (conv : bool) : outcome (@answer E) :=
  let want := match vectors with Some _ => true | None => false end in
  _ <- assert_ (negb ((n <? neig) || (neig =? 0))) ;;
  if n <=? 4 then
    M <- map_matrix fuel f n ;;
    match eigtype_of eig_type with
    | Some t =>
      '(v, z) <- eigs (fun x => x) false re im modulus neg lt std_sort_ix junkc (fun _ _ _ => UB) eigC fuel M t neig want ;;
      Ok (mkT (dims v) (map proj (data v)), option_map (fun z => mkT (dims z) (map proj (data z))) z, ask_converged conv true)
    | None => _ <- eigC M false want ;; UB
    end
  else eigs_iterative N real_problem default_tol aupd eupd junk junk_state fuel (map_step f) n eig_type neig vectors conv.

(* eigs(RSparse, ...), eigs_sp_d.cc:28-34, eigs_sp_z.cc:28-34 *)
Definition eigs_sparse (jdims : nat -> nat) (fuel : nat) (A : sparse E) (eig_type : Z) (neig : nat) (vectors : option (tensor E)) (conv : bool)
  : outcome (@answer E) :=
  do_eigs fuel (mmult_sp_t N jdims junk A) (scols A) eig_type neig vectors conv.
End Eigs.

(* what a program may do with an object, arpack_d.h:47-63 *)
Inductive op {E T} := OpUpdate | OpStart (v : list E) | OpTolerance (t : T) | OpMaxiter (m : nat) | OpSetY (y : tensor E).
(* a call, arpack_d.h:47-63 *)
Definition do_op {E S T} (aupd : problem T -> io E S -> io E S) (o : @object E S T) (c : @op E T) : outcome (@object E S T) :=
  match c with
  | OpUpdate => update aupd o
  | OpStart v => set_start_vector o v
  | OpTolerance t => set_tolerance o t
  | OpMaxiter m => set_maxiter o m
  | OpSetY y => set_y o y
  end.
(* a history of calls, arpack_d.h:47-63 *)
Fixpoint do_ops {E S T} (aupd : problem T -> io E S -> io E S) (o : @object E S T) (cs : list (@op E T)) : outcome (@object E S T) :=
  match cs with [] => Ok o | c :: cs => o <- do_op aupd o c ;; do_ops aupd o cs end.
