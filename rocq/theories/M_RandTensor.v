(* Model of random tensors and random sparse matrices.
   include/tensor/detail/tensor_base.hpp, sparse_base.hpp, src/rand/rand.cc *)
From Coq Require Import Reals.
From Flocq Require Import BinarySingleNaN.
From Verif Require Import Base Spec S_Reduce S_Sparse M_Tensor M_Sparse M_Rand M_Double M_DoubleReduce M_RandDouble.

(* rand<double>(), rand.cc:119-121, with 64 bits, rand64.cc:171-174 *)
Definition draw64 (st : mt_state) : outcome (double * mt_state) :=
  '(x, st) <- genrand mt64 st ;; Ok (rand_double_64 x, st).
(* with 32 bits, rand32.cc:172-176: the two declarators are in sequence *)
Definition draw32 (st : mt_state) : outcome (double * mt_state) :=
  '(x, st) <- genrand mt32 st ;; '(y, st) <- genrand mt32 st ;; Ok (rand_double_32 x y, st).
(* rand<cdouble>(), rand.cc:123-125.  The order in which the two arguments of
   to_complex are evaluated is unspecified: re_first is the compiler's choice. *)
Definition draw_complex (draw : mt_state -> outcome (double * mt_state)) (re_first : bool) (st : mt_state)
  : outcome ((double * double) * mt_state) :=
  '(a, st) <- draw st ;; '(b, st) <- draw st ;; Ok (if re_first then (a, b) else (b, a), st).

Section Random.
Context {E : Type}.
(* rand<elt_t>() for the k-th element *)
Context (draw : nat -> mt_state -> outcome (E * mt_state)).

(* randomize, tensor_base.hpp:366-371.  begin() makes the data unique. *)
Definition randomize (t : tensor E) (st : mt_state) : outcome (tensor E * mt_state) :=
  '(d, st) <- for_ (length (data t)) (fun k '(d, st) => '(x, st) <- draw k st ;; d <- wr d k x ;; Ok (d, st)) (data t, st) ;;
  Ok (mkT (dims t) d, st).
(* random(d1, ...) and random(dims), tensor_base.hpp:373-427 *)
Definition random (junk : nat -> E) (ds : list nat) (st : mt_state) : outcome (tensor E * mt_state) :=
  randomize (new_tensor junk ds) st.
(* one random tensor after the other, tensor_base.hpp:373-427 *)
Fixpoint randoms (junk : nat -> E) (shapes : list (list nat)) (st : mt_state) : outcome (list (tensor E) * mt_state) :=
  match shapes with
  | [] => Ok ([], st)
  | ds :: shapes => '(t, st) <- random junk ds st ;; '(ts, st) <- randoms junk shapes st ;; Ok (t :: ts, st)
  end.
End Random.

(* the comparison x == number_zero<double>(), sparse_base.hpp:162-172, 186-195 *)
Definition dzero (x : double) : bool := Beqb x (dofZ 0).
(* the loop of Sparse::random, sparse_base.hpp:259-268: one element *)
Definition thin (density x : double) : double := if dlt density (dabs x) then dofZ 0 else ddiv x density.
(* RSparse::random, sparse_base.hpp:254-270.  CSparse is in M_RandSparse. *)
Definition sparse_random (draw : mt_state -> outcome (double * mt_state)) (junk : nat -> double) jrs jcol jdata
    (rows columns : nat) (density : double) (st : mt_state) : outcome (sparse double * mt_state) :=
  '(output, st) <- randomize (fun _ => draw) (new_tensor junk [rows * columns]) st ;;
  d <- for_ (length (data output)) (fun k d => x <- rd d k ;; wr d k (thin density x)) (data output) ;;
  t <- reshape (mkT (dims output) d) [rows; columns] ;;
  s <- of_dense dzero jrs jcol jdata t ;;
  Ok (s, st).

(* rand<T>() for an integer type without a specialisation (short, char, long
   long, ...), rand.h:42-44: static_cast<T>(rand<double>()), which truncates *)
Definition rand_other (r : double) : Z := Flocq.Core.Raux.Ztrunc (B2R r).
