(* C20, C21: Kronecker products. *)
From Verif Require Import Base Spec S_Fold M_Tensor M_Arith M_Fold M_Kron L_Kron.

(* C20: A varies slowly *)
Theorem C20_kron : forall A (N : numops A) junk (a b : tensor A) ra ca rb cb,
  wf a -> wf b -> dims a = [ra; ca] -> dims b = [rb; cb] ->
  exists c, kron N junk a b = Ok c /\ wf c /\ dims c = [ra * rb; ca * cb] /\
    forall i j k l, i < ra -> j < rb -> k < ca -> l < cb ->
      elt c [i * rb + j; k * cb + l] = Some (nmul N (val N a [i; k]) (val N b [j; l])).
Proof. intros. apply kron_mat_ok; auto. Qed.
Print Assumptions C20_kron.

Theorem C20_kron_vectors : forall A (N : numops A) junk (a b : tensor A) n m,
  wf a -> wf b -> dims a = [n] -> dims b = [m] ->
  exists c, kron N junk a b = Ok c /\ wf c /\ dims c = [n * m] /\
    forall i j, i < n -> j < m -> elt c [i * m + j] = Some (nmul N (val N a [i]) (val N b [j])).
Proof. intros. apply kron_vec_ok; auto. Qed.
Print Assumptions C20_kron_vectors.

(* kron2 exchanges the roles: B varies slowly *)
Theorem C20_kron2 : forall A (N : numops A) junk (a b : tensor A) ra ca rb cb,
  wf a -> wf b -> dims a = [ra; ca] -> dims b = [rb; cb] ->
  exists c, kron2 N junk a b = Ok c /\ wf c /\ dims c = [rb * ra; cb * ca] /\
    forall i j k l, i < ra -> j < rb -> k < ca -> l < cb ->
      elt c [j * ra + i; l * ca + k] = Some (nmul N (val N b [j; l]) (val N a [i; k])).
Proof.
  intros A N junk a b ra ca rb cb Ha Hb Ea Eb.
  destruct (kron_mat_ok N junk b a rb cb ra ca Hb Ha Eb Ea) as (c & H1 & H2 & H3 & H4).
  exists c. repeat split; auto.
Qed.
Print Assumptions C20_kron2.

Theorem C20_kron2_is_kron : forall A (N : numops A) junk (a b : tensor A), kron2 N junk a b = kron N junk b a.
Proof. reflexivity. Qed.
Print Assumptions C20_kron2_is_kron.

Theorem C20_rejects : forall A (N : numops A) junk (a b : tensor A),
  length (dims a) <> length (dims b) \/ 2 < length (dims a) -> kron N junk a b = Abort.
Proof. intros. apply kron_reject; auto. Qed.
Print Assumptions C20_rejects.

(* (A x B)(C x D) = AC x BD *)
Theorem C20_mixed_product : forall A (N : numops A) jdims junk (a b c d : tensor A) ra la ca rb lb cb,
  numlaws N -> wf a -> wf b -> wf c -> wf d ->
  dims a = [ra; la] -> dims c = [la; ca] -> dims b = [rb; lb] -> dims d = [lb; cb] -> 0 < la -> 0 < lb ->
  exists ab cd ac bd p,
    kron N junk a b = Ok ab /\ kron N junk c d = Ok cd /\
    mmult N jdims junk a c = Ok ac /\ mmult N jdims junk b d = Ok bd /\
    mmult N jdims junk ab cd = Ok p /\ kron N junk ac bd = Ok p.
Proof. intros. eapply kron_mixed_product; eauto. Qed.
Print Assumptions C20_mixed_product.

Example C20_nonvacuous :
  let a := mkT [2; 1] [2; 3]%Z in let b := mkT [1; 2] [5; 7]%Z in let v := mkT [2] [1; 10]%Z in
  wf a /\ wf b /\ wf v /\
  kron Znum (fun _ => 9%Z) a b = Ok (mkT [2; 2] [10; 15; 14; 21]%Z) /\
  kron Znum (fun _ => 9%Z) v (mkT [3] [1; 2; 3]%Z) = Ok (mkT [6] [1; 2; 3; 10; 20; 30]%Z) /\
  kron Znum (fun _ => 9%Z) v a = Abort.
Proof. repeat split. Qed.

Example C20_mixed_nonvacuous :
  let a := mkT [2; 2] [1; 2; 3; 4]%Z in
  numlaws Znum /\ wf a /\ dims a = [2; 2] /\
  (x <- kron Znum (fun _ => 9%Z) a a ;; mmult Znum (fun _ => 7) (fun _ => 9%Z) x x) =
  (x <- mmult Znum (fun _ => 7) (fun _ => 9%Z) a a ;; kron Znum (fun _ => 9%Z) x x).
Proof. split; [exact Znum_laws|]. repeat split. Qed.

(* C21, dense arguments: A x 1 + 1 x B, with the ordering of kron.  The part
   about sparse arguments is in P_Sparse. *)
Theorem C21_dense_partial : forall A (N : numops A) junk (a b : tensor A) n m,
  numlaws N -> wf a -> wf b -> dims a = [n; n] -> dims b = [m; m] ->
  exists c, kron2_sum N junk a b = Ok c /\ wf c /\ dims c = [n * m; n * m] /\
    forall i j k l, i < n -> j < m -> k < n -> l < m ->
      elt c [i * m + j; k * m + l] =
      Some (nadd N (if i =? k then val N b [j; l] else nzero N)
                   (if j =? l then val N a [i; k] else nzero N)).
Proof. intros. apply kron2_sum_mat_ok; auto. Qed.
Print Assumptions C21_dense_partial.

(* vectors (diagonals of diagonal operators) *)
Theorem C21_dense_vectors_partial : forall A (N : numops A) junk (a b : tensor A) n m,
  numlaws N -> wf a -> wf b -> dims a = [n] -> dims b = [m] ->
  exists c, kron2_sum N junk a b = Ok c /\ wf c /\ dims c = [n * m] /\
    forall i j, i < n -> j < m -> elt c [i * m + j] = Some (nadd N (val N b [j]) (val N a [i])).
Proof. intros. apply kron2_sum_vec_ok; auto. Qed.
Print Assumptions C21_dense_vectors_partial.

Example C21_nonvacuous :
  let a := mkT [2; 2] [1; 2; 3; 4]%Z in let b := mkT [1; 1] [10]%Z in
  numlaws Znum /\ wf a /\ wf b /\
  kron2_sum Znum (fun _ => 9%Z) a b = Ok (mkT [2; 2] [11; 2; 3; 14]%Z) /\
  kron2_sum Znum (fun _ => 9%Z) (mkT [2] [1; 2]%Z) (mkT [2] [10; 20]%Z) = Ok (mkT [4] [11; 21; 12; 22]%Z).
Proof. split; [exact Znum_laws|]. repeat split. Qed.
