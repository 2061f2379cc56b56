(* Model of the lives of operators: include/tensor/map.h, src/tools/map.cc, and
   of how the solvers cgs, eig_power and eigs make and release them.  The memory
   is that of M_RefCount; a tensor or sparse matrix is the list of its vectors. *)
From Verif Require Import Base M_RefCount.

Section MapLife.
Context {A : Type}.

(* MatrixMap with the vectors of m_, map.h:41, or FunctionMap with its reference
   f_, map.h:51, to a function object.  Function pointers and function objects
   without tensors are function objects with no vectors. *)
Inductive operator := MMatrix (vs : list nat) | MFunction (f : nat).

(* Program state: the vectors; the function objects, as the vectors of their
   members a1_, a2_, ... (map.h:61, 80-81, 102-104), None once destroyed; the
   operators, None once deleted, and whether the program has a name for them (map.h:29-52). *)
Record world := mkW { mem : state A; funs : list (option (list nat)); maps : list (option (operator * bool)) }.

(* copies of vectors, as made by the copy constructors of Tensor and Sparse,
   map.cc:26; the numbers of the new vectors *)
Fixpoint copies (s : state A) (hs : list nat) : outcome (state A * list nat) :=
  match hs with
  | [] => Ok (s, [])
  | h :: rest => '(s1, _) <- step s (OCopy h) ;; '(s2, vs) <- copies s1 rest ;; Ok (s2, length (vars s) :: vs)
  end.
(* the destructors, map.cc:30, in the reverse order *)
Fixpoint destroys (s : state A) (hs : list nat) : outcome (state A) :=
  match hs with [] => Ok s | h :: rest => s1 <- destroys s rest ;; '(s2, _) <- step s1 (ODestroy h) ;; Ok s2 end.

(* with_args, map.h:65-69, 86-90, 108-113: the parameters a1, a2, ... are copies,
   the members are copies of them, and the parameters are destroyed.  The object
   is returned without a further copy. *)
Definition with_args (w : world) (hs : list nat) : outcome (world * nat) :=
  '(s1, ps) <- copies (mem w) hs ;;
  '(s2, vs) <- copies s1 ps ;;
  s3 <- destroys s2 ps ;;
  Ok (mkW s3 (funs w ++ [Some vs]) (maps w), length (funs w)).
(* the end of the life of a function object, map.h:55-63 *)
Definition drop_fun (w : world) (f : nat) : outcome world :=
  match nth_error (funs w) f with
  | Some (Some vs) => s <- destroys (mem w) vs ;; Ok (mkW s (upd (funs w) f None) (maps w))
  | _ => UB
  end.

(* what an operator is made from: map.h:37 and 47 *)
Inductive source := FromMatrix (hs : list nat) | FromFunction (f : nat).
(* new MatrixMap(m), map.cc:24-28, or new FunctionMap(f), map.h:47; [kept] if the
   program keeps it, as a variable *)
Definition new_map (w : world) (src : source) (kept : bool) : outcome (world * nat) :=
  match src with
  | FromMatrix hs => '(s, vs) <- copies (mem w) hs ;; Ok (mkW s (funs w) (maps w ++ [Some (MMatrix vs, kept)]), length (maps w))
  | FromFunction f => Ok (mkW (mem w) (funs w) (maps w ++ [Some (MFunction f, kept)]), length (maps w))
  end.
(* delete A, cgs.cc:62, eig_power.hpp:66 *)
Definition delete_map (w : world) (m : nat) : outcome world :=
  match nth_error (maps w) m with
  | Some (Some (MMatrix vs, _)) => s <- destroys (mem w) vs ;; Ok (mkW s (funs w) (upd (maps w) m None))
  | Some (Some (MFunction _, _)) => Ok (mkW (mem w) (funs w) (upd (maps w) m None))
  | _ => UB
  end.

(* the elements of a vector, begin_const() to end_const(), refcount.h:74-75 *)
Definition read_all (s : state A) (h : nat) : outcome (list A) := a <- var s h ;; p <- get s a ;; contents s (pbuf p).
(* A applied to x, map.cc:33-35 and map.h:49: all that the result may depend on, besides
   x, is the contents of the vectors of the matrix or of the function object *)
Definition apply (w : world) (m : nat) : outcome (list (list A)) :=
  match nth_error (maps w) m with
  | Some (Some (MMatrix vs, _)) => mapM (read_all (mem w)) vs
  | Some (Some (MFunction f, _)) =>
    match nth_error (funs w) f with Some (Some vs) => mapM (read_all (mem w)) vs | _ => UB end
  | _ => UB
  end.

(* What the rest of a solver decides after calls of the operator that have read
   these contents: the numbers in it are not modelled here.  cgs.cc:44-58,
   eig_power.hpp:58-64, and the status of update in eigs_map_d.cc:70-84 *)
Inductive verdict := Continue | Stop | Fail | Die.
Context (judge : list (list (list A)) -> verdict).

(* the loop of cgs.cc:45-60 *)
Fixpoint cgs_rounds (n : nat) (w : world) (m : nat) (xs : list (list (list A))) : outcome (list (list (list A))) :=
  match n with
  | 0 => Ok xs
  | S n =>
    x <- apply w m ;;
    match judge (xs ++ [x]) with
    | Continue => cgs_rounds n w m (xs ++ [x])
    | Stop => Ok (xs ++ [x])
    | _ => Abort
    end
  end.
(* solve, cgs.cc:28-64: the rounds are maxiter + 1.  Result: the state and what
   the calls have read. *)
Definition cgs_life (maxiter : nat) (w : world) (m : nat) : outcome (world * list (list (list A))) :=
  x <- apply w m ;;
  xs <- match judge [x] with
        | Continue => cgs_rounds (S maxiter) w m [x]
        | Stop => Ok [x]
        | _ => Abort
        end ;;
  w <- delete_map w m ;;
  Ok (w, xs).

(* the loop of eig_power.hpp:53-65 *)
Fixpoint power_rounds (n : nat) (w : world) (m : nat) (xs : list (list (list A))) : outcome (list (list (list A))) :=
  match n with
  | 0 => Ok xs
  | S n =>
    x <- apply w m ;;
    match judge (xs ++ [x]) with
    | Continue => power_rounds n w m (xs ++ [x])
    | Stop => Ok (xs ++ [x])
    | _ => Abort
    end
  end.
(* eig_power_loop, eig_power.hpp:30-68 *)
Definition power_life (iter : nat) (w : world) (m : nat) : outcome (world * list (list (list A))) :=
  xs <- power_rounds (S iter) w m [] ;;
  w <- delete_map w m ;;
  Ok (w, xs).

(* the columns of a small matrix, eigs_map_d.cc:46-50 *)
Fixpoint eigs_columns (n : nat) (w : world) (m : nat) (xs : list (list (list A))) : outcome (list (list (list A))) :=
  match n with 0 => Ok xs | S n => x <- apply w m ;; eigs_columns n w m (xs ++ [x]) end.
(* the loop of eigs_map_d.cc:70-72 and the return of 73-84; [conv] if converged is not null *)
Fixpoint eigs_rounds (fuel : nat) (conv : bool) (w : world) (m : nat) (xs : list (list (list A))) : outcome (list (list (list A))) :=
  match fuel with
  | 0 => Hang
  | S fuel =>
    match judge xs with
    | Continue => x <- apply w m ;; eigs_rounds fuel conv w m (xs ++ [x])
    | Stop => Ok xs
    | Fail => if conv then Ok xs else Abort
    | Die => Abort
    end
  end.
(* do_eigs, eigs_map_d.cc:28-86, eigs_map_z.cc:27-85: the operator is not deleted *)
Definition eigs_life (fuel n neig : nat) (conv : bool) (w : world) (m : nat) : outcome (world * list (list (list A))) :=
  _ <- assert_ (negb ((n <? neig) || (neig =? 0))) ;;
  xs <- (if n <=? 4 then eigs_columns n w m [] else eigs_rounds fuel conv w m []) ;;
  Ok (w, xs).
End MapLife.
Arguments world : clear implicits.

(* the solvers of linalg.h:48-70, 84-133, 150-197 *)
Inductive solver := Cgs (maxiter : nat) | Power (iter : nat) | Eigs (fuel n neig : nat) (conv : bool).
(* a call, linalg.h:69, 132, 195, cgs_d.cc:36, eig_power_d.cc:35, eigs_sp_d.cc:32 *)
Definition solve {A} (judge : list (list (list A)) -> verdict) (k : solver) (w : world A) (src : source) : outcome (world A * list (list (list A))) :=
  '(w, m) <- new_map w src false ;;
  match k with
  | Cgs maxiter => cgs_life judge maxiter w m
  | Power iter => power_life judge iter w m
  | Eigs fuel n neig conv => eigs_life judge fuel n neig conv w m
  end.

(* what a program may do: calls of vector.h:41-65, map.h:29-52, 65-113, linalg.h:48-197 *)
Inductive uop {A} :=
| UVec (o : op A)
| UFun (hs : list nat)                 (* with_args, map.h:65-113 *)
| UDrop (f : nat)                      (* a function object ends *)
| USolve (judge : list (list (list A)) -> verdict) (k : solver) (src : source)
| UKeep (src : source)                 (* a variable of type MatrixMap or FunctionMap, map.h:35-52 *)
| UApply (m : nat)
| URelease (m : nat).
Arguments uop : clear implicits.

(* one call of vector.h:41-65, map.h:29-113 or linalg.h:48-197, and what the
   operators have read in it *)
Definition ustep {A} (w : world A) (o : uop A) : outcome (world A * list (list (list A))) :=
  match o with
  | UVec o => '(s, _) <- step (mem w) o ;; Ok (mkW s (funs w) (maps w), [])
  | UFun hs => '(w, _) <- with_args w hs ;; Ok (w, [])
  | UDrop f => w <- drop_fun w f ;; Ok (w, [])
  | USolve judge k src => solve judge k w src
  | UKeep src => '(w, _) <- new_map w src true ;; Ok (w, [])
  | UApply m => x <- apply w m ;; Ok (w, [x])
  | URelease m => w <- delete_map w m ;; Ok (w, [])
  end.
