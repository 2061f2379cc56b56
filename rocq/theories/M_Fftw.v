(* Model of fftw and fftw_inplace, src/fftw/fftw.cc, fftw_inplace.cc,
   fftw_common.cc.  The conversions of dimensions and strides to int are taken
   to be exact. *)
From Verif Require Import Base Spec S_Fftw M_Tensor.

(* fftw_iodim. As filled in fftw_common.cc:53-62 *)
Record iodim := mkIO { io_n : nat; io_is : nat; io_os : nat }.

Section Fftw.
(* root direction n: exp(direction 2 pi i / n) *)
Context {A : Type} (N : numops A) (root : Z -> nat -> A).

(* ---- the FFTW library, from its documentation ---- *)

(* the number of points, for fftw_common.cc:72-74 *)
Definition io_count (ds : list iodim) : nat := fold_right (fun d n => io_n d * n) 1 ds.
(* the indices of the q-th point. For fftw_common.cc:72-74 *)
Fixpoint io_index (ds : list iodim) (q : nat) : list nat :=
  match ds with [] => [] | d :: ds => q mod io_n d :: io_index ds (q / io_n d) end.
(* the position of a point, for fftw_common.cc:72-74 *)
Fixpoint io_pos (stride : iodim -> nat) (ds : list iodim) (ix : list nat) : nat :=
  match ds, ix with d :: ds, i :: ix => i * stride d + io_pos stride ds ix | _, _ => 0 end.
(* the phase between two points, for fftw_common.cc:72-74 *)
Fixpoint io_phase (sign : Z) (ds : list iodim) (j k : list nat) : A :=
  match ds, j, k with
  | d :: ds, j0 :: j, k0 :: k => nmul N (npow N (root sign (io_n d)) (j0 * k0)) (io_phase sign ds j k)
  | _, _, _ => none_ N
  end.

(* fftw_execute on the plan of fftw_plan_guru_dft(rank, dims, howmany_rank,
   howmany_dims, in, out, sign, flags): a separate transform over dims for every
   point of howmany_dims.  pin is the input before the call, also when the
   transform is in place.  There is no plan for a transform with a dimension of
   size zero, and executing the null plan is undefined. Called in fftw_common.cc:72-74, 104-106 *)
Definition fftw_guru (ds howmany : list iodim) (sign : Z) (pin pout : list A) : outcome (list A) :=
  if existsb (fun d => io_n d =? 0) ds then UB else
  for_ (io_count howmany) (fun h => for_ (io_count ds) (fun q out =>
    let l := io_index howmany h in
    let k := io_index ds q in
    v <- for_ (io_count ds) (fun p s =>
           let j := io_index ds p in
           x <- rd pin (io_pos io_is howmany l + io_pos io_is ds j) ;;
           Ok (nadd N s (nmul N x (io_phase sign ds j k)))) (nzero N) ;;
    wr out (io_pos io_os howmany l + io_pos io_os ds k) v)) pout.

(* fftw_plan_dft(rank, n, ...): an array in row-major order. Called in fftw_common.cc:38 *)
Fixpoint row_major (n : list nat) : list iodim :=
  match n with [] => [] | m :: n => mkIO m (prod n) (prod n) :: row_major n end.
(* fftw_common.cc:32, 38 *)
Definition fftw_dft (n : list nat) := fftw_guru (row_major n) [].

(* ---- fftw_common.cc ---- *)

Context (jdims : nat -> nat) (jio : nat -> iodim).

(* do_fftw(pin, pout, dims, direction), fftw_common.cc:25-43 *)
Definition do_fftw_all (pin pout : list A) (dims : list nat) (direction : Z) : outcome (list A) :=
  let d := length dims in
  if d =? 1 then
    n <- rd dims 0 ;; fftw_dft [n] direction pin pout
  else
    dimensions <- for_ d (fun i dimensions => n <- rd dims i ;; wr dimensions (d - i - 1) n) (alloc jdims d) ;;
    fftw_dft dimensions direction pin pout.

(* do_fftw(pin, pout, dim, dims, direction), fftw_common.cc:45-76 *)
Definition do_fftw_dim (pin pout : list A) (dim : nat) (dims : list nat) (direction : Z) : outcome (list A) :=
  '(loop_dims, stride) <- for_ dim (fun i '(loop_dims, stride) =>
    n <- rd dims i ;;
    loop_dims <- wr loop_dims i (mkIO n stride stride) ;;
    Ok (loop_dims, stride * n)) (alloc jio (length dims - 1), 1) ;;
  n <- rd dims dim ;;
  let fft_dim := mkIO n stride stride in
  let stride := stride * n in
  '(loop_dims, _) <- for_ (length dims - (dim + 1)) (fun i' '(loop_dims, stride) =>
    let i := dim + 1 + i' in
    n <- rd dims i ;;
    loop_dims <- wr loop_dims (i - 1) (mkIO n stride stride) ;;
    Ok (loop_dims, stride * n)) (loop_dims, stride) ;;
  fftw_guru [fft_dim] loop_dims direction pin pout.

(* do_fftw(pin, pout, convert, dims, direction), fftw_common.cc:78-108.  State:
   fft_dims, fft_size, loop_dims, loop_size, stride *)
Definition do_fftw_some (pin pout : list A) (convert : list bool) (dims : list nat) (direction : Z) : outcome (list A) :=
  '(fft_dims, fft_size, loop_dims, loop_size, _) <-
    for_ (length dims) (fun i '(fft_dims, fft_size, loop_dims, loop_size, stride) =>
      c <- rd convert i ;;
      n <- rd dims i ;;
      if c : bool then
        fft_dims <- wr fft_dims fft_size (mkIO n stride stride) ;;
        Ok (fft_dims, S fft_size, loop_dims, loop_size, stride * n)
      else
        loop_dims <- wr loop_dims loop_size (mkIO n stride stride) ;;
        Ok (fft_dims, fft_size, loop_dims, S loop_size, stride * n))
    (alloc jio (length dims), 0, alloc jio (length dims), 0, 1) ;;
  fftw_guru (firstn fft_size fft_dims) (firstn loop_size loop_dims) direction pin pout.

(* ---- fftw.cc ---- *)

Context (junk : nat -> A).

(* fftw(in, direction), fftw.cc:27-39 *)
Definition fftw_all (t : tensor A) (direction : Z) : outcome (tensor A) :=
  d <- do_fftw_all (data t) (data (new_tensor junk (dims t))) (dims t) direction ;; Ok (mkT (dims t) d).
(* fftw(in, dim, direction), fftw.cc:41-53 *)
Definition fftw_dim (t : tensor A) (dim : Z) (direction : Z) : outcome (tensor A) :=
  _ <- assert_ ((0 <=? dim) && (dim <? Z.of_nat (length (dims t))))%Z ;;
  d <- do_fftw_dim (data t) (data (new_tensor junk (dims t))) (Z.to_nat dim) (dims t) direction ;; Ok (mkT (dims t) d).
(* fftw(in, convert, direction), fftw.cc:55-67 *)
Definition fftw_some (t : tensor A) (convert : list bool) (direction : Z) : outcome (tensor A) :=
  _ <- assert_ (length convert =? length (dims t)) ;;
  d <- do_fftw_some (data t) (data (new_tensor junk (dims t))) convert (dims t) direction ;; Ok (mkT (dims t) d).

(* fftw_inplace, fftw_inplace.cc:25-29 *)
Definition fftw_inplace_all (t : tensor A) (direction : Z) : outcome (tensor A) :=
  d <- do_fftw_all (data t) (data t) (dims t) direction ;; Ok (mkT (dims t) d).
(* fftw_inplace.cc:31-36 *)
Definition fftw_inplace_dim (t : tensor A) (dim : Z) (direction : Z) : outcome (tensor A) :=
  _ <- assert_ ((0 <=? dim) && (dim <? Z.of_nat (length (dims t))))%Z ;;
  d <- do_fftw_dim (data t) (data t) (Z.to_nat dim) (dims t) direction ;; Ok (mkT (dims t) d).
(* fftw_inplace.cc:38-43 *)
Definition fftw_inplace_some (t : tensor A) (convert : list bool) (direction : Z) : outcome (tensor A) :=
  _ <- assert_ (length convert =? length (dims t)) ;;
  d <- do_fftw_some (data t) (data t) convert (dims t) direction ;; Ok (mkT (dims t) d).
End Fftw.
