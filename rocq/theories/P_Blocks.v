(* C52: find_blocks. *)
From Coq Require Import Sorted.
From Verif Require Import Base Spec L_Lin M_Tensor M_Permute M_Blocks S_Blocks L_Blocks.
Local Open Scope Z_scope.

(* With the default tolerance: for every matrix the function returns normally,
   the count is the number of components that hold a nonzero element, and the
   lists are the rows and columns of those components, except that nothing is
   listed when there is one. *)
Theorem C52_blocks :
  forall (A T : Type) (significant : T -> A -> bool) (zero_tol : T) (junk : nat -> Z) (jt : nat -> A) (a : tensor A) (N M : nat),
    wf a -> dims a = [N; M] ->
    exists rows cols,
      components (fun i j => exists x, elt a [i; j] = Some x /\ significant zero_tol x = true) rows cols /\
      find_blocks significant zero_tol junk jt a zero_tol =
        Ok (Z.of_nat (length rows), if (length rows =? 1)%nat then None else Some (rows, cols)).
Proof.
  intros A T sg z junk jt a N M W D. pose proof (blocks_ok sg z junk jt a z N M W D) as H. cbv zeta in H. destruct (M <? N)%nat; exact H.
Qed.
Print Assumptions C52_blocks.

(* With a tolerance: the same when there are at least as many columns as rows. *)
Theorem C52_blocks_tolerance_partial :
  forall (A T : Type) (significant : T -> A -> bool) (zero_tol : T) (junk : nat -> Z) (jt : nat -> A) (a : tensor A) (tol : T) (N M : nat),
    wf a -> dims a = [N; M] -> (N <= M)%nat ->
    exists rows cols,
      components (fun i j => exists x, elt a [i; j] = Some x /\ significant tol x = true) rows cols /\
      find_blocks significant zero_tol junk jt a tol =
        Ok (Z.of_nat (length rows), if (length rows =? 1)%nat then None else Some (rows, cols)).
Proof.
  intros A T sg z junk jt a tol N M W D Hl. pose proof (blocks_ok sg z junk jt a tol N M W D) as H. cbv zeta in H.
  replace (M <? N)%nat with false in H by lia. exact H.
Qed.
Print Assumptions C52_blocks_tolerance_partial.

(* The listed components are unique: the rows and columns of any two answers
   agree up to the order of the blocks. *)
Theorem C52_components_unique :
  forall (E : nat -> nat -> Prop) rows cols rows' cols',
    components E rows cols -> components E rows' cols' ->
    length rows = length rows' /\
    forall b R C, nth_error rows b = Some R -> nth_error cols b = Some C ->
      exists b', nth_error rows' b' = Some R /\ nth_error cols' b' = Some C.
Proof. exact components_unique. Qed.
Print Assumptions C52_components_unique.

(* elements count when |x| > tol, over the integers *)
Definition big (tol x : Z) : bool := tol <? Z.abs x.
(* the comment's kind of matrix: rows 0 and 2 with columns 0 and 3; row 1 with column 1; column 2 empty *)
Definition blk : tensor Z := mkT [3%nat; 4%nat] [1; 0; 0;  0; 5; 0;  0; 0; 0;  2; 0; 3].
Example C52_blocks_meets : wf blk /\ find_blocks big 0 (fun _ => 7) (fun _ => 9) blk 0 = Ok (2, Some ([[0; 2]; [1]], [[0; 3]; [1]])%nat).
Proof. split; reflexivity. Qed.
(* a label that is merged away, and a tall matrix *)
Definition blk2 : tensor Z := mkT [4%nat; 3%nat] [1; 0; 0; 0;  0; 1; 0; 0;  1; 1; 0; 4].
Example C52_blocks_meets_one : find_blocks big 0 (fun _ => 7) (fun _ => 9) blk2 0 = Ok (1, None).
Proof. reflexivity. Qed.

(* A matrix with more rows than columns is transposed and the tolerance is not
   passed on: the same matrix and its transpose give different answers. *)
Theorem C52_tolerance_refuted :
  let a := mkT [2%nat; 1%nat] [5; 1] in
  let at_ := mkT [1%nat; 2%nat] [5; 1] in
  (forall i j, elt a [i; j] = elt at_ [j; i]) /\
  (* with tolerance 6 nothing is significant *)
  (forall i j x, elt a [i; j] = Some x -> big 6 x = false) /\
  find_blocks big 0 (fun _ => 0) (fun _ => 0) at_ 6 = Ok (0, Some ([], [])) /\
  find_blocks big 0 (fun _ => 0) (fun _ => 0) a 6 = Ok (1, None).
Proof.
  cbv zeta. split; [|split; [|split; reflexivity]].
  - intros [|[|i]] [|[|j]]; reflexivity.
  - intros [|[|i]] [|[|j]] x E; cbn in E; try discriminate; injection E as <-; reflexivity.
Qed.
Print Assumptions C52_tolerance_refuted.
