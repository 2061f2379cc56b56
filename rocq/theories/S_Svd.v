(* Vocabulary of the properties of svd and eig_sym. *)
From Verif Require Import Base Spec S_Fold S_Reduce S_BlockSvd S_Cgs M_Svd.
Local Open Scope nat_scope.

Section Contracts.
Context {A R : Type} (N : numops A) (lt : R -> R -> bool) (rzero : R) (inj : R -> A).
Definition kron_delta (k l : nat) : A := if k =? l then none_ N else nzero N.
(* the first p columns of a matrix with n rows are orthonormal; its first p
   rows, with n entries, are *)
Definition orthonormal_columns (n p : nat) (U : nat -> nat -> A) : Prop :=
  forall k l, k < p -> l < p -> sum_n N n (fun i => nmul N (nconj N (U i k)) (U i l)) = kron_delta k l.
Definition orthonormal_rows (n p : nat) (V : nat -> nat -> A) : Prop :=
  forall k l, k < p -> l < p -> sum_n N n (fun j => nmul N (V k j) (nconj N (V l j))) = kron_delta k l.

(* a = U diag(s) V, with unitary U and V and s >= 0 descending *)
Record singular_values (m n : nat) (a : nat -> nat -> A) (s : nat -> R) (U V : nat -> nat -> A) : Prop := {
  sv_columns : orthonormal_columns m m U;
  sv_rows : orthonormal_rows n n V;
  sv_product : forall i j, i < m -> j < n -> sum_n N (Nat.min m n) (fun k => nmul N (nmul N (U i k) (inj (s k))) (V k j)) = a i j;
  sv_nonneg : forall k, k < Nat.min m n -> lt (s k) rzero = false;
  sv_descending : forall k l, k < l -> l < Nat.min m n -> lt (s k) (s l) = false }.

(* What LAPACK documents for xGESVD of the m x n matrix with the elements al: if
   info is zero, s holds the singular values, and U and VT, as far as they are
   wanted, the first columns and rows of the unitary matrices. *)
Definition gesvd_good (gesvd : job -> job -> nat -> nat -> list A -> Z * (nat -> R) * (nat -> nat -> A) * (nat -> nat -> A))
  (jobu jobv : job) (m n : nat) (al : list A) : Prop :=
  let '(info, s, U, VT) := gesvd jobu jobv m n al in
  info = 0%Z /\ exists U0 V0, singular_values m n (fun i j => nth (i + m * j) al (nzero N)) s U0 V0 /\
    (forall i k, i < m -> k < job_size jobu m (Nat.min m n) -> U i k = U0 i k) /\
    (forall k j, k < job_size jobv n (Nat.min m n) -> j < n -> VT k j = V0 k j).

(* the Hermitian matrix given by the upper triangle of a *)
Context (re : A -> R).
Definition upper_hermitian (a : nat -> nat -> A) (i k : nat) : A :=
  if i =? k then inj (re (a i i)) else if i <? k then a i k else nconj N (a k i).
(* h V = V diag(w), with orthonormal columns of V and ascending w *)
Record eigensystem (n : nat) (h : nat -> nat -> A) (w : nat -> R) (V : nat -> nat -> A) : Prop := {
  es_columns : orthonormal_columns n n V;
  es_vectors : forall i k, i < n -> k < n -> sum_n N n (fun j => nmul N (h i j) (V j k)) = nmul N (inj (w k)) (V i k);
  es_ascending : forall k l, k < l -> l < n -> lt (w l) (w k) = false }.
(* What LAPACK documents for xSYEV and xHEEV with uplo = 'U': only the upper
   triangle is referenced, and of the diagonal the real part. *)
Definition heev_good (heev : bool -> nat -> list A -> Z * (nat -> R) * (nat -> nat -> A)) (jobz : bool) (n : nat) (al : list A) : Prop :=
  let '(info, w, V) := heev jobz n al in
  info = 0%Z /\ exists V0, eigensystem n (upper_hermitian (fun i k => nth (i + n * k) al (nzero N))) w V0 /\
    (jobz = true -> forall i k, i < n -> k < n -> V i k = V0 i k).
End Contracts.

(* an optional result, present when wanted, of the dimensions and elements given *)
Definition matrix_is {A} (want : bool) (o : option (tensor A)) (r c : nat) (f : nat -> nat -> A) : Prop :=
  match o with
  | Some t => want = true /\ wf t /\ dims t = [r; c] /\ forall i k, i < r -> k < c -> elt t [i; k] = Some (f i k)
  | None => want = false
  end.
