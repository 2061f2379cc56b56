(* C53: block_svd of matrices without elements *)
From Coq Require Import QArith Qcanon.
From Verif Require Import Base Spec S_Fold M_Tensor M_Arith M_Range M_Reduce M_Blocks S_Blocks L_Blocks P_Blocks M_BlockSvd S_BlockSvd L_BlockSvd L_Fold L_Permute S_Expm M_Expm L_Expm P_BlockSvd.
Local Open Scope nat_scope.

Lemma size_r n : total_sizeZ [Z.of_nat n; 0%Z] = 0%Z.
Proof. unfold total_sizeZ. cbn [total_size_loop]. replace (Z.of_nat n <? 0)%Z with false by lia. cbn [Z.ltb Z.compare]. lia. Qed.

Lemma size_l n : total_sizeZ [0%Z; Z.of_nat n] = 0%Z.
Proof. unfold total_sizeZ. cbn [total_size_loop Z.ltb Z.compare]. replace (Z.of_nat n <? 0)%Z with false by lia. lia. Qed.

Lemma slice_vec_0 R (jx : nat -> R) fuel : slice_t (S (S fuel)) jx (mkT [0] []) [ixs []] = Ok (mkT [0] []).
Proof. reflexivity. Qed.

Lemma slice_cols_0 A (jx : nat -> A) n fuel : slice_t (S (S fuel)) jx (mkT [n; 0] []) [SFull; ixs []] = Ok (mkT [n; 0] []).
Proof.
  unfold slice_t, slice, make_view, ixs. cbn [map make_range dims length Nat.eqb assert_ bind set_limits set_limit].
  replace (0 <=? Z.of_nat n)%Z with true by lia. cbn [assert_ bind forallb Z.leb Z.compare Z.of_nat mapM rsize length product_all product get_factor get_limit set_factor].
  unfold view_to_tensor. remember (alloc jx (Z.to_nat (total_sizeZ [Z.of_nat n; 0%Z]))) as out eqn:Ho.
  replace (total_sizeZ [Z.of_nat n; 0%Z]) with 0%Z in Ho by (symmetry; auto using size_r, size_l).
  transitivity (Ok (mkT (map Z.to_nat [Z.of_nat n; 0%Z]) out)); [reflexivity|]. subst out. cbn [map]. rewrite Nat2Z.id. reflexivity.
Qed.

Lemma slice_rows_0 A (jx : nat -> A) m fuel : slice_t (S (S (S fuel))) jx (mkT [0; m] []) [ixs []; SFull] = Ok (mkT [0; m] []).
Proof.
  unfold slice_t, slice, make_view, ixs. cbn [map make_range dims length Nat.eqb assert_ bind set_limits set_limit].
  replace (0 <=? Z.of_nat m)%Z with true by lia. cbn [assert_ bind forallb Z.leb Z.compare Z.of_nat mapM rsize length product_all product get_factor get_limit set_factor Z.mul].
  rewrite Z.mul_0_r.
  unfold view_to_tensor. remember (alloc jx (Z.to_nat (total_sizeZ [0%Z; Z.of_nat m]))) as out eqn:Ho.
  replace (total_sizeZ [0%Z; Z.of_nat m]) with 0%Z in Ho by (symmetry; auto using size_r, size_l).
  transitivity (Ok (mkT (map Z.to_nat [0%Z; Z.of_nat m]) out)); [reflexivity|]. subst out. cbn [map]. rewrite Nat2Z.id. reflexivity.
Qed.

(* A matrix without elements has no singular values: the program ends, with U of
   as many rows as the matrix, VT of as many columns, and neither with elements;
   svd is not called, which would stop. *)
Theorem C53_empty :
  forall (A R T : Type) (N : numops A) (rzero : R) (lt : R -> R -> bool) (absv : A -> R) (divr : A -> R -> A)
    (significant : T -> A -> bool) (zero_tol : T) std_sort_ix svd junk junkr jb (a : tensor A) (n m : nat) (economic : bool),
    wf a -> dims a = [n; m] -> n = 0 \/ m = 0 -> economic = true \/ n = m ->
    exists F, forall fuel, F <= fuel ->
      block_svd N rzero lt absv divr significant zero_tol std_sort_ix svd junk junkr jb fuel a economic =
        Ok (mkT [0] [], mkT [n; 0] [], mkT [0; m] []).
Proof.
  intros A R T N rzero lt absv divr sg z srt svd junk junkr jb a n m economic W D H0 Hmode.
  destruct (C52_blocks A T sg z jb junk a n m W D) as (rows & cols & HC & HFB).
  assert (Hr : rows = [] /\ cols = []).
  { destruct HC as (HL & HB & _). destruct rows as [|R0 rows]; destruct cols as [|C0 cols]; try discriminate HL; [auto|].
    destruct (HB 0 R0 C0 eq_refl eq_refl) as ((i & j & _ & _ & x & Hx & _) & _). exfalso.
    unfold elt in Hx. destruct (validb (dims a) [i; j]) eqn:V; [|discriminate Hx]. rewrite D in V. cbn in V.
    destruct H0 as [-> | ->]; rewrite ?andb_false_r in V; cbn in V; try discriminate V.  }
  destruct Hr as (-> & ->). cbn [length Nat.eqb] in HFB.
  exists 3. intros fuel Hf. destruct fuel as [|[|[|fuel]]]; try lia.
  assert (Hmin : Nat.min n m = 0) by lia.
  assert (E1 : (if economic then Nat.min n m else n) = 0) by (destruct economic; [lia|destruct Hmode; [discriminate|lia]]).
  assert (E2 : (if economic then Nat.min n m else m) = 0) by (destruct economic; [lia|destruct Hmode; [discriminate|lia]]).
  unfold block_svd. rewrite (dimension_ok a [] n [m] 0 D eq_refl : dimension a 0 = Ok n), (dimension_ok a [n] m [] 1 D eq_refl : dimension a 1 = Ok m). cbn [bind].
  replace (negb (n =? m) && negb economic) with false by (destruct Hmode as [->| ->]; [rewrite andb_false_r|rewrite Nat.eqb_refl]; reflexivity).
  cbv zeta. rewrite HFB. cbn [bind]. rewrite E1, E2, Hmin.
  replace (fill_with (new_tensor junkr [0]) rzero) with (Ok (mkT [0] ([] : list R))) by reflexivity.
  assert (Z1 : zeros N junk [n; 0] = Ok (mkT [n; 0] [])).
  { unfold zeros, fill_with, new_tensor. cbn [dims data]. replace (total_size [n; 0]) with 0 by (unfold total_size; cbn [map]; rewrite size_r; reflexivity). reflexivity. }
  assert (Z2 : zeros N junk [0; m] = Ok (mkT [0; m] [])).
  { unfold zeros, fill_with, new_tensor. cbn [dims data]. replace (total_size [0; m]) with 0 by (unfold total_size; cbn [map]; rewrite size_l; reflexivity). reflexivity. }
  rewrite Z1, Z2. cbn [bind]. cbn [Z.of_nat Z.to_nat length]. unfold for_. cbn [for_from bind].
  replace (sort_indices lt srt {| dims := [0]; data := [] |} true) with (@nil nat) by reflexivity.
  rewrite slice_vec_0. cbn [bind]. rewrite slice_cols_0. cbn [bind]. rewrite slice_rows_0. reflexivity.
Qed.
Print Assumptions C53_empty.

(* a matrix of three rows and no columns; it is decomposed in the sense of
   C53_block_svd_partial *)
Example C53_empty_meets : forall svd,
  let a := mkT [3; 0] (qs []) in
  wf a /\ shown (block_svd_Qc svd a true) = Ok (([0], []), ([3; 0], []), ([0; 0], [])) /\
  shapes 3 0 true (mkT [0] (qs [])) (mkT [3; 0] (qs [])) (mkT [0; 0] (qs [])) /\
  decomposes Qcnum (Q2Qc 0) (fun x => x) a 3 0 0 (mkT [0] (qs [])) (mkT [3; 0] (qs [])) (mkT [0; 0] (qs [])).
Proof. intros svd a. split; [reflexivity|]. split; [vm_compute; reflexivity|]. split; [repeat split|]. intros i j Hi Hj. lia. Qed.
