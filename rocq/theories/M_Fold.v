(* Model of tensor contraction: fold, foldc, mmult, foldin and their _into forms.
   src/tensor/tensor_fold.cc, tensor_fold_d.cc, tensor_fold_z.cc,
   tensor_fold_dz.cc, tensor_foldin.cc, tensor_foldin_d.cc, gemm.cc *)
From Verif Require Import Base Spec M_Tensor.

(* the transposition flags 'N', 'T', 'C' of BLAS, gemm.cc:30-79 *)
Inductive blas_op := OpN | OpT | OpC.

Section Fold.
Context {A : Type} (N : numops A).

(* Element (i,p) of op(M) for a block M stored with leading dimension ld.
   The layout of the arguments of gemm.cc:30-79 *)
Definition blas_pos (op : blas_op) (ld i p : nat) : nat :=
  match op with OpN => i + ld * p | OpT | OpC => p + ld * i end.
(* 'C' conjugates, gemm.cc:30-79 *)
Definition blas_val (op : blas_op) (x : A) : A :=
  match op with OpC => nconj N x | _ => x end.

(* gemm(op1, op2, m, n, k, 1, A, lda, B, ldb, 0, C, ldc), gemm.cc:30-79, i.e.
   cblas_dgemm/cblas_zgemm in column-major order with alpha = 1, beta = 0.
   TRUSTED: BLAS is external code; it is modelled by its specification
   C = op1(A) op2(B), computed in exact arithmetic by the textbook triple loop.
   [ra]/[rb] read an element of A/B given the current contents of C (A or B may
   be the block C itself, see fold_into); offC is the position of C. *)
Definition gemm (op1 op2 : blas_op) (m n k : nat)
    (ra : list A -> nat -> outcome A) (offA lda : nat)
    (rb : list A -> nat -> outcome A) (offB ldb : nat)
    (offC ldc : nat) : list A -> outcome (list A) :=
  for_ n (fun j => for_ m (fun i c =>
    s <- for_ k (fun p s =>
           x <- ra c (offA + blas_pos op1 lda i p) ;;
           y <- rb c (offB + blas_pos op2 ldb p j) ;;
           Ok (nadd N s (nmul N (blas_val op1 x) (blas_val op2 y)))) (nzero N) ;;
    wr c (offC + (i + ldc * j)) s)).

(* The signature of gemm, gemm.cc:30-79.  The functions below take the BLAS they
   call as an argument: [gemm] above, or one that rounds (M_FoldDouble). *)
Definition gemm_fun : Type :=
  blas_op -> blas_op -> nat -> nat -> nat -> (list A -> nat -> outcome A) -> nat -> nat ->
  (list A -> nat -> outcome A) -> nat -> nat -> nat -> nat -> list A -> outcome (list A).

(* for (len = 1, i = lo; i < hi; i++) { di = a.dimension(i);
     new_dims.at(rank++) = di; len *= di; } tensor_fold.cc:53-57, 67-76, 85-89 *)
Definition take_dims (a : tensor A) (lo hi : nat) (st : list nat * nat) : outcome ((list nat * nat) * nat) :=
  for_ (hi - lo) (fun k (s : (list nat * nat) * nat) =>
    let (st, len) := s in
    di <- dimension a (Z.of_nat (lo + k)) ;;
    st' <- put di st ;;
    Ok (st', len * di)) (st, 1).

(* new_dims.at(0) = 1 when no index is left; tensor_fold.cc:93-96 *)
Definition unit_if_scalar (st : list nat * nat) : outcome (list nat) :=
  let (nd, rank) := st in
  if rank =? 0 then wr nd 0 1 else Ok nd.

(* the choice of BLAS calls in do_fold, tensor_fold.cc:101-160; pC is the output
   block *)
Definition fold_paths_with (gemm : gemm_fun) (do_conj : bool) (ra rb : list A -> nat -> outcome A)
    (i_len j_len k_len l_len m_len : nat) (pC : list A) : outcome (list A) :=
  let general :=
    let op1 := OpN in
    let op2 := if do_conj then OpC else OpT in
    let ij_len := i_len * j_len in
    let il_len := i_len * l_len in
    let kl_len := k_len * l_len in
    let jk_len := j_len * k_len in
    c <- for_ m_len (fun m => for_ j_len (fun j =>
           gemm op1 op2 i_len k_len l_len ra (il_len * j) i_len rb (kl_len * m) k_len
                (i_len * (j + jk_len * m)) ij_len)) pC ;;
    if do_conj then
      for_ (length c) (fun i c => x <- rd c i ;; wr c i (nconj N x)) c
    else Ok c in
  if i_len =? 1 then
    if k_len =? 1 then
      gemm (if do_conj then OpC else OpT) OpN j_len m_len l_len ra 0 l_len rb 0 l_len 0 j_len pC
    else if m_len =? 1 then
      gemm (if do_conj then OpC else OpT) OpT j_len k_len l_len ra 0 l_len rb 0 k_len 0 j_len pC
    else general
  else if (j_len =? 1) && negb do_conj then
    if k_len =? 1 then
      gemm OpN OpN i_len m_len l_len ra 0 i_len rb 0 l_len 0 i_len pC
    else if m_len =? 1 then
      gemm OpN OpT i_len k_len l_len ra 0 i_len rb 0 k_len 0 i_len pC
    else general
  else general.
(* tensor_fold.cc:101-160 *)
Definition fold_paths := fold_paths_with gemm.

(* do_fold, tensor_fold.cc:31-161.  [self_a]/[self_b]: the output is the same
   object as a/b, so that after "output = Tensor(new_dims)" (line 97) the
   pointers pA/pB designate the freshly allocated block.  [jdims] is the
   initial contents of the Indices new_dims. *)
Definition do_fold_with (gemm : gemm_fun) (do_conj self_a self_b : bool) (jdims : nat -> nat) (junk : nat -> A)
    (a : tensor A) (_ndx1 : Z) (b : tensor A) (_ndx2 : Z) : outcome (tensor A) :=
  let ranka := length (dims a) in
  let rankb := length (dims b) in
  ndx1 <- normalize_index _ndx1 ranka ;;
  ndx2 <- normalize_index _ndx2 rankb ;;
  let nd := alloc jdims (Nat.max (ranka + rankb - 2) 1) in
  '(st, i_len) <- take_dims a 0 ndx1 (nd, 0) ;;
  l_len <- dimension a (Z.of_nat ndx1) ;;
  if l_len =? 0 then Abort else
  '(st, j_len) <- take_dims a (S ndx1) ranka st ;;
  '(st, k_len) <- take_dims b 0 ndx2 st ;;
  l_len' <- dimension b (Z.of_nat ndx2) ;;
  if negb (l_len =? l_len') then Abort else
  '(st, m_len) <- take_dims b (S ndx2) rankb st ;;
  new_dims <- unit_if_scalar st ;;
  let output := new_tensor junk new_dims in
  if length (data output) =? 0 then Ok output else
  let ra := fun c => if self_a then rd c else rd (data a) in
  let rb := fun c => if self_b then rd c else rd (data b) in
  c <- fold_paths_with gemm do_conj ra rb i_len j_len k_len l_len m_len (data output) ;;
  Ok (mkT new_dims c).

(* do_fold, tensor_fold.cc:31-161 *)
Definition do_fold := do_fold_with gemm.

(* fold, tensor_fold_d.cc:39-45, tensor_fold_z.cc:39-45; the destination is a
   fresh local tensor *)
Definition fold := do_fold false false false.
(* foldc on complex tensors, tensor_fold_z.cc:62-68 *)
Definition foldc := do_fold true false false.
(* foldc on real tensors, tensor_fold_d.cc:52-58 *)
Definition foldc_d := do_fold false false false.
(* fold_into(c, a, ndx1, b, ndx2) with c a different object than a and b; the
   old value of c is dropped.  tensor_fold_d.cc:60-64 *)
Definition fold_into (jdims : nat -> nat) (junk : nat -> A) (c a : tensor A) (ndx1 : Z) (b : tensor A) (ndx2 : Z)
  : outcome (tensor A) := do_fold false false false jdims junk a ndx1 b ndx2.
(* fold_into(a, a, ndx1, b, ndx2) and fold_into(b, a, ndx1, b, ndx2), tensor_fold_d.cc:60-64 *)
Definition fold_into_a := do_fold false true false.
(* tensor_fold_d.cc:60-64 *)
Definition fold_into_b := do_fold false false true.
(* mmult, tensor_fold_d.cc:68-71 *)
Definition mmult jdims junk (m1 m2 : tensor A) := fold jdims junk m1 (-1)%Z m2 0%Z.
(* tensor_fold_d.cc:73-76 *)
Definition mmult_into jdims junk (c m1 m2 : tensor A) := fold_into jdims junk c m1 (-1)%Z m2 0%Z.
(* mmult_into(m1, m1, m2), tensor_fold_d.cc:73-76 *)
Definition mmult_into_a jdims junk (m1 m2 : tensor A) := fold_into_a jdims junk m1 (-1)%Z m2 0%Z.
(* mmult_into(m2, m1, m2), tensor_fold_d.cc:73-76 *)
Definition mmult_into_b jdims junk (m1 m2 : tensor A) := fold_into_b jdims junk m1 (-1)%Z m2 0%Z.

(* do_foldin_into, tensor_foldin.cc:31-110.  There new_dims has ranka+rankb-2
   entries, also when that is 0. *)
Definition do_foldin_into_with (gemm : gemm_fun) (self_a self_b : bool) (jdims : nat -> nat) (junk : nat -> A)
    (a : tensor A) (_ndx1 : Z) (b : tensor A) (_ndx2 : Z) : outcome (tensor A) :=
  let ranka := length (dims a) in
  let rankb := length (dims b) in
  ndx1 <- normalize_index _ndx1 ranka ;;
  ndx2 <- normalize_index _ndx2 rankb ;;
  let nd := alloc jdims (ranka + rankb - 2) in
  '(st, k_len) <- take_dims b 0 ndx2 (nd, 0) ;;
  l_len <- dimension b (Z.of_nat ndx2) ;;
  '(st, i_len) <- take_dims a 0 ndx1 st ;;
  l_len' <- dimension a (Z.of_nat ndx1) ;;
  if negb (l_len =? l_len') then Abort else
  '(st, j_len) <- take_dims a (S ndx1) ranka st ;;
  '(st, m_len) <- take_dims b (S ndx2) rankb st ;;
  new_dims <- unit_if_scalar st ;;
  let output := new_tensor junk new_dims in
  if length (data output) =? 0 then Ok output else
  let ra := fun c => if self_a then rd c else rd (data a) in
  let rb := fun c => if self_b then rd c else rd (data b) in
  let il_len := i_len * l_len in
  let kl_len := k_len * l_len in
  let ki_len := k_len * i_len in
  c <- for_ m_len (fun m => for_ j_len (fun j =>
         gemm OpN OpT k_len i_len l_len rb (kl_len * m) k_len ra (il_len * j) i_len
              (ki_len * (j + j_len * m)) k_len)) (data output) ;;
  Ok (mkT new_dims c).

(* do_foldin_into, tensor_foldin.cc:31-110 *)
Definition do_foldin_into := do_foldin_into_with gemm.
(* foldin, tensor_foldin_d.cc:34-40 *)
Definition foldin := do_foldin_into false false.
(* foldin_into, tensor_foldin_d.cc:46-51 *)
Definition foldin_into (jdims : nat -> nat) (junk : nat -> A) (c a : tensor A) (ndx1 : Z) (b : tensor A) (ndx2 : Z)
  : outcome (tensor A) := do_foldin_into false false jdims junk a ndx1 b ndx2.
(* foldin_into(a, a, ...), tensor_foldin_d.cc:46-51 *)
Definition foldin_into_a := do_foldin_into true false.
(* foldin_into(b, a, ..., b, ...), tensor_foldin_d.cc:46-51 *)
Definition foldin_into_b := do_foldin_into false true.

End Fold.

(* conj(Tensor), src/tensor/tensor_conj.cc:26-37: elementwise *)
Definition tconj {A} (N : numops A) (t : tensor A) : tensor A := mkT (dims t) (map (nconj N) (data t)).

(* to_complex(RTensor), src/tensor/tensor_to_complex.cc:25-33: elementwise
   injection; the mixed real/complex folds convert the real argument first
   (tensor_fold_dz.cc:24-51) *)
Definition to_complex {A B} (inj : A -> B) (t : tensor A) : tensor B := mkT (dims t) (map inj (data t)).
(* tensor_fold_dz.cc:24-28 *)
Definition fold_dz {A B} (NB : numops B) (inj : A -> B) jdims junk (a : tensor A) ndx1 (b : tensor B) ndx2 :=
  fold NB jdims junk (to_complex inj a) ndx1 b ndx2.
(* tensor_fold_dz.cc:30-34 *)
Definition foldc_dz {A B} (NB : numops B) (inj : A -> B) jdims junk (a : tensor A) ndx1 (b : tensor B) ndx2 :=
  fold NB jdims junk (to_complex inj a) ndx1 b ndx2.
(* tensor_fold_dz.cc:41-45 *)
Definition fold_zd {A B} (NB : numops B) (inj : A -> B) jdims junk (a : tensor B) ndx1 (b : tensor A) ndx2 :=
  fold NB jdims junk a ndx1 (to_complex inj b) ndx2.
(* tensor_fold_dz.cc:47-51 *)
Definition foldc_zd {A B} (NB : numops B) (inj : A -> B) jdims junk (a : tensor B) ndx1 (b : tensor A) ndx2 :=
  foldc NB jdims junk a ndx1 (to_complex inj b) ndx2.
