(* C14, C15: permute, transpose, adjoint. *)
From Verif Require Import Base Spec M_Tensor M_Permute S_Permute L_Permute.

(* C14.  [coord r i n]: the signed index number i designates position n among
   r; [swapped n1 n2 l l']: l' is l with positions n1 and n2 exchanged. *)
Theorem C14_permute :
  forall (A : Type) (junk : nat -> A) (t : tensor A) (i1 i2 : Z) (n1 n2 : nat),
    wf t -> coord (length (dims t)) i1 n1 -> coord (length (dims t)) i2 n2 ->
    exists u, do_permute junk t i1 i2 = Ok u /\ wf u /\ swapped n1 n2 (dims t) (dims u) /\
      forall ix ix', swapped n1 n2 ix ix' -> elt u ix' = elt t ix.
Proof. exact @c14_permute. Qed.
Print Assumptions C14_permute.

Theorem C14_permute_rejects :
  forall (A : Type) (junk : nat -> A) (t : tensor A) (i1 i2 : Z),
    (forall n, ~ coord (length (dims t)) i1 n) \/ (forall n, ~ coord (length (dims t)) i2 n) ->
    do_permute junk t i1 i2 = Abort.
Proof. exact @c14_reject. Qed.
Print Assumptions C14_permute_rejects.

Theorem C14_permute_twice :
  forall (A : Type) (junk junk' : nat -> A) (t : tensor A) (i1 i2 : Z) (u : tensor A),
    wf t -> do_permute junk t i1 i2 = Ok u -> do_permute junk' u i1 i2 = Ok t.
Proof. exact @c14_involution. Qed.
Print Assumptions C14_permute_twice.

Theorem C14_transpose_is_permute :
  forall (A : Type) (junk junk' : nat -> A) (t : tensor A),
    wf t -> length (dims t) = 2 -> transpose junk t = do_permute junk' t 0 1.
Proof. exact @c14_transpose. Qed.
Print Assumptions C14_transpose_is_permute.

Example C14_nonvacuous :
  let t := mkT [2;3;2] [0;1;2;3;4;5;6;7;8;9;10;11] in
  forall junk,
    do_permute junk t 0 (-1) = Ok (mkT [2;3;2] [0;6;2;8;4;10;1;7;3;9;5;11]) /\
    do_permute junk t 1 2 = Ok (mkT [2;2;3] [0;1;6;7;2;3;8;9;4;5;10;11]) /\
    do_permute junk t 0 3 = Abort /\
    coord (length (dims t)) (-1) 2.
Proof. intros t junk. repeat split; auto. Qed.

(* C15 *)
Theorem C15_transpose :
  forall (A : Type) (junk : nat -> A) (t : tensor A) (r c : nat),
    wf t -> dims t = [r; c] ->
    exists u, transpose junk t = Ok u /\ wf u /\ dims u = [c; r] /\
      forall i j, elt u [j; i] = elt t [i; j].
Proof. exact @c15_transpose. Qed.
Print Assumptions C15_transpose.

Theorem C15_adjoint :
  forall (A : Type) (conj : A -> A) (junk : nat -> A) (t : tensor A) (r c : nat),
    wf t -> dims t = [r; c] ->
    exists u, adjoint conj junk t = Ok u /\ wf u /\ dims u = [c; r] /\
      forall i j, elt u [j; i] = option_map conj (elt t [i; j]).
Proof. exact @c15_adjoint_gen. Qed.
Print Assumptions C15_adjoint.

Theorem C15_transpose_twice :
  forall (A : Type) (junk junk' : nat -> A) (t u : tensor A),
    wf t -> transpose junk t = Ok u -> transpose junk' u = Ok t.
Proof. exact @c15_transpose_involution. Qed.
Print Assumptions C15_transpose_twice.

Theorem C15_adjoint_twice :
  forall (A : Type) (conj : A -> A) (junk junk' : nat -> A) (t u : tensor A),
    (forall x, conj (conj x) = x) ->
    wf t -> adjoint conj junk t = Ok u -> adjoint conj junk' u = Ok t.
Proof. exact @c15_adjoint_involution. Qed.
Print Assumptions C15_adjoint_twice.

Theorem C15_rank_two_only :
  forall (A : Type) (conj : A -> A) (junk : nat -> A) (t : tensor A),
    length (dims t) <> 2 -> transpose junk t = Abort /\ adjoint conj junk t = Abort.
Proof. exact @c15_rank. Qed.
Print Assumptions C15_rank_two_only.

Example C15_nonvacuous :
  forall junk, transpose junk (mkT [2;3] [0;1;2;3;4;5]) = Ok (mkT [3;2] [0;2;4;1;3;5]) /\
    (forall junk', adjoint (nconj Gnum) junk' (mkT [1;2] [(1,2);(3,-4)]%Z) = Ok (mkT [2;1] [(1,-2);(3,4)]%Z)).
Proof. intros junk. split; reflexivity. Qed.
