(* C90: products of tensors of doubles, whatever the order in which they are added
   up.  Vocabulary: S_FoldDouble.v (rounded, pairs), S_Fold.v, S_Sparse.v. *)
From Coq Require Import Reals Lra Permutation.
From Flocq Require Import Core BinarySingleNaN.
From Verif Require Import Base Spec S_Fold S_Reduce S_Sparse M_Tensor M_Fold M_Reduce M_Sparse M_Double S_Double L_Double S_DoubleReduce M_DoubleReduce L_DoubleReduce
  L_Lin L_Tensor L_Fold L_Sparse L_Sparse6 L_Sparse7 S_FoldDouble M_FoldDouble L_FoldDouble L_FoldDouble2 L_FoldDouble3.
Local Open Scope nat_scope.

(* fold(A, m, B, n) for RTensor, with any BLAS.  A has dimensions p1, l, s1 and B
   has dimensions p2, l, s2, where l is the extent of the contracted index. *)
Theorem C90_fold : forall dot jdims junk (a b : tensor double) m n p1 l s1 p2 s2,
  real_blas dot -> wf a -> wf b ->
  dims a = p1 ++ l :: s1 -> coord (length (dims a)) m (length p1) ->
  dims b = p2 ++ l :: s2 -> coord (length (dims b)) n (length p2) ->
  0 < l ->
  exists c, fold_any Dnum dot jdims junk a m b n = Ok c /\ wf c /\
    dims c = scalar_dims (p1 ++ s1 ++ p2 ++ s2) /\
    forall u1 v1 u2 v2, valid p1 u1 -> valid s1 v1 -> valid p2 u2 -> valid s2 v2 ->
      exists x, elt c (scalar_ix (u1 ++ v1 ++ u2 ++ v2)) = Some x /\
        rounded (pairs l (fun x => val Dnum a (u1 ++ x :: v1)) (fun x => val Dnum b (u2 ++ x :: v2))) x.
Proof.
  intros dot jd junk a b m n p1 l s1 p2 s2 Hd Ha Hb Ea H1 Eb H2 Hl.
  apply (fold_with_ok Dnum (fun x => eq_refl) dot rounded); auto.
  - intros q t. apply evaluates_rounded, Hd.
  - intros t x R. rewrite <- (map_id t) in R. cbn [nconj Dnum]. erewrite map_ext; [exact R|]. intros [y z]. reflexivity.
Qed.
Print Assumptions C90_fold.

(* mmult(A, B) for RTensor: each element of the product is accurate to about as
   many units of roundoff as there are terms; products of integers are exact *)
Theorem C90_mmult : forall dot jdims junk (a b : tensor double) r l c,
  real_blas dot -> wf a -> wf b -> dims a = [r; l] -> dims b = [l; c] -> 0 < l ->
  exists p, mmult_any Dnum dot jdims junk a b = Ok p /\ wf p /\ dims p = [r; c] /\
    forall i j, i < r -> j < c ->
      exists x, elt p [i; j] = Some x /\ rounded (pairs l (fun x => val Dnum a [i; x]) (fun x => val Dnum b [x; j])) x.
Proof.
  intros dot jd junk a b r l c Hdot Ha Hb Ea Eb Hl.
  destruct (C90_fold dot jd junk a b (-1) 0 [r] l [] [] [c]) as (p & E & Hw & Hd & H); auto.
  - rewrite Ea. split; simpl; [lia|auto].
  - rewrite Eb. split; simpl; [lia|auto].
  - exists p. split; [exact E|]. split; [auto|]. split; [exact Hd|]. intros i j Hi Hj.
    apply (H [i] [] [] [j]); repeat constructor; auto.
Qed.
Print Assumptions C90_mmult.

(* foldin(A, m, B, n) for RTensor *)
Theorem C90_foldin : forall dot jdims junk (a b : tensor double) m n p1 l s1 p2 s2,
  real_blas dot -> wf a -> wf b ->
  dims a = p1 ++ l :: s1 -> coord (length (dims a)) m (length p1) ->
  dims b = p2 ++ l :: s2 -> coord (length (dims b)) n (length p2) ->
  0 < l -> p2 ++ p1 ++ s1 ++ s2 <> [] ->
  exists c, foldin_any Dnum dot jdims junk a m b n = Ok c /\ wf c /\ dims c = p2 ++ (p1 ++ s1) ++ s2 /\
    forall u1 v1 u2 v2, valid p1 u1 -> valid s1 v1 -> valid p2 u2 -> valid s2 v2 ->
      exists x, elt c (u2 ++ (u1 ++ v1) ++ v2) = Some x /\
        rounded (pairs l (fun x => val Dnum b (u2 ++ x :: v2)) (fun x => val Dnum a (u1 ++ x :: v1))) x.
Proof.
  intros dot jd junk a b m n p1 l s1 p2 s2 Hd Ha Hb Ea H1 Eb H2 Hl Hne. apply (foldin_with_ok Dnum dot rounded); auto. intros q t. apply evaluates_rounded, Hd.
Qed.
Print Assumptions C90_foldin.

(* fold and foldc for CTensor: both parts of each element are accurate, and foldc
   conjugates its first argument *)
Theorem C90_complex : forall dot fix_nan jdims junk (a b : tensor complex) m n p1 l s1 p2 s2 (do_conj : bool),
  complex_blas dot -> wf a -> wf b ->
  dims a = p1 ++ l :: s1 -> coord (length (dims a)) m (length p1) ->
  dims b = p2 ++ l :: s2 -> coord (length (dims b)) n (length p2) ->
  0 < l ->
  let N := Cnum fix_nan in
  exists c, (if do_conj then foldc_any N dot jdims junk a m b n else fold_any N dot jdims junk a m b n) = Ok c /\ wf c /\
    dims c = scalar_dims (p1 ++ s1 ++ p2 ++ s2) /\
    forall u1 v1 u2 v2, valid p1 u1 -> valid s1 v1 -> valid p2 u2 -> valid s2 v2 ->
      exists x, elt c (scalar_ix (u1 ++ v1 ++ u2 ++ v2)) = Some x /\
        complex_rounded (pairs l (fun x => let z := val N a (u1 ++ x :: v1) in if do_conj then cconj z else z) (fun x => val N b (u2 ++ x :: v2))) x.
Proof.
  intros dot f jd junk a b m n p1 l s1 p2 s2 do_conj Hd Ha Hb Ea H1 Eb H2 Hl N.
  destruct (fold_with_ok N (cconj_cconj f) dot complex_rounded) with (do_conj := do_conj) (jd := jd) (junk := junk) (a := a) (b := b) (m := m) (n := n) (p1 := p1) (l := l) (s1 := s1) (p2 := p2) (s2 := s2)
    as (c & E & W & D & H); auto.
  - intros q t. destruct (Hd q t) as [E1 E2]. split; apply evaluates_rounded; auto.
  - intros t x R. apply (conj_rounded f t x R).
  - exists c. split; [destruct do_conj; exact E|]. split; [exact W|]. split; [exact D|]. intros u1 v1 u2 v2 V1 V2 V3 V4.
    destruct (H u1 v1 u2 v2 V1 V2 V3 V4) as (x & Ex & Rx). exists x. split; [exact Ex|]. destruct do_conj; exact Rx.
Qed.
Print Assumptions C90_complex.

(* dimensions that do not match are refused, whatever the BLAS *)
Theorem C90_rejects : forall dot jdims junk (a b : tensor double) m n p1 l1 s1 p2 l2 s2,
  dims a = p1 ++ l1 :: s1 -> coord (length (dims a)) m (length p1) ->
  dims b = p2 ++ l2 :: s2 -> coord (length (dims b)) n (length p2) -> l1 <> l2 ->
  fold_any Dnum dot jdims junk a m b n = Abort /\ foldin_any Dnum dot jdims junk a m b n = Abort.
Proof.
  intros dot jd junk a b m n p1 l1 s1 p2 l2 s2 Ea H1 Eb H2 Hne. split.
  - unfold fold_any. rewrite (do_fold_with_gen Dnum _ false jd junk a b m n p1 l1 s1 p2 l2 s2) by auto. destruct (l1 =? 0); [reflexivity|]. replace (l1 =? l2) with false by lia. reflexivity.
  - unfold foldin_any. rewrite (foldin_with_gen _ jd junk a b m n p1 l1 s1 p2 l2 s2) by auto. replace (l2 =? l1) with false by lia. reflexivity.
Qed.
Print Assumptions C90_rejects.

(* scprod of complex tensors: the sum of a_k conj(b_k) *)
Theorem C90_scprod_complex : forall fix_nan (a b : tensor complex), never_finite fix_nan -> length (data a) = length (data b) ->
  exists x, scprod_complex fix_nan a b = Ok x /\ complex_rounded (map (fun p => (fst p, cconj (snd p))) (combine (data a) (data b))) x.
Proof. intros. apply scprod_complex_rounded; auto. Qed.
Print Assumptions C90_scprod_complex.

(* mmult(S, t): only the stored entries of the row count *)
Theorem C90_sparse : forall jdims junk (s : sparse double) (t : tensor double) ds,
  wf_sparse s -> wf t -> dims t = scols s :: ds ->
  exists p, mmult_sparse_double jdims junk s t = Ok p /\ wf p /\ dims p = srows s :: ds /\
    forall i v, i < srows s -> valid ds v ->
      exists x, elt p (i :: v) = Some x /\ rounded (row_terms (row_entries s i) (fun j => val Dnum t (j :: v))) x.
Proof.
  intros jd junk s t ds W Ht Hd. destruct (mmult_sp_t_rows Dnum jd junk s t ds W Ht Hd) as (p & E & Wp & Dp & H). exists p. do 3 (split; [assumption|]).
  intros i v Hi Hv. eexists. split; [apply H; auto|]. apply rowsum_rounded.
Qed.
Print Assumptions C90_sparse.
Theorem C90_sparse_complex : forall fix_nan jdims junk (s : sparse complex) (t : tensor complex) ds, never_finite fix_nan ->
  wf_sparse s -> wf t -> dims t = scols s :: ds ->
  exists p, mmult_sp_t (Cnum fix_nan) jdims junk s t = Ok p /\ wf p /\ dims p = srows s :: ds /\
    forall i v, i < srows s -> valid ds v ->
      exists x, elt p (i :: v) = Some x /\ complex_rounded (row_terms (row_entries s i) (fun j => val (Cnum fix_nan) t (j :: v))) x.
Proof.
  intros f jd junk s t ds Hf W Ht Hd. destruct (mmult_sp_t_rows (Cnum f) jd junk s t ds W Ht Hd) as (p & E & Wp & Dp & H). exists p. do 3 (split; [assumption|]).
  intros i v Hi Hv. eexists. split; [apply H; auto|]. apply rowsum_complex, Hf.
Qed.
Print Assumptions C90_sparse_complex.

(* ---- what does not hold in doubles ---- *)

(* two BLAS: from the first term to the last, and from the last to the first *)
Definition dot_left : dot_fun double := fun _ l => fold_left (fun s p => dadd s (dmul (fst p) (snd p))) l (dofZ 0).
Definition dot_right : dot_fun double := fun _ l => fold_right (fun p s => dfma (fst p) (snd p) s) (dofZ 0) l.
Lemma dot_left_ok : real_blas dot_left.
Proof.
  intros q l. unfold dot_left. assert (G : forall l m s, evaluates m s -> evaluates (m ++ l) (fold_left (fun s p => dadd s (dmul (fst p) (snd p))) l s)).
  { clear. induction l as [|[x y] l IH]; intros m s H; [rewrite app_nil_r; exact H|]. cbn [fold_left]. replace (m ++ (x, y) :: l) with ((m ++ [(x, y)]) ++ l) by (rewrite <- app_assoc; reflexivity).
    apply IH, ev_add; [exact H|apply ev_mul]. }
  apply (G l []). rewrite dofZ_0. apply ev_zero.
Qed.
Lemma dot_right_ok : real_blas dot_right.
Proof. intros q l. unfold dot_right. induction l as [|[x y] l IH]; cbn [fold_right]; [rewrite dofZ_0; apply ev_zero|apply ev_fma, IH]. Qed.

(* the product depends on the BLAS: 2^53 + 1 - 2^53 is 0 for one and 1 for the other *)
Theorem C90_order_refuted : exists dot1 dot2 a b, real_blas dot1 /\ real_blas dot2 /\ wf a /\ wf b /\
  forall jdims junk, exists x y, mmult_any Dnum dot1 jdims junk a b = Ok (mkT [1; 1] [x]) /\ mmult_any Dnum dot2 jdims junk a b = Ok (mkT [1; 1] [y]) /\ x <> y.
Proof.
  exists dot_left, dot_right, (mkT [1; 3] [dmake 1 53; dofZ 1; dmake (-1) 53]), (mkT [3; 1] [dofZ 1; dofZ 1; dofZ 1]).
  split; [apply dot_left_ok|]. split; [apply dot_right_ok|]. split; [reflexivity|]. split; [reflexivity|]. intros jd junk.
  exists (dot_left 0 [(dmake 1 53, dofZ 1); (dofZ 1, dofZ 1); (dmake (-1) 53, dofZ 1)]), (dot_right 0 [(dmake 1 53, dofZ 1); (dofZ 1, dofZ 1); (dmake (-1) 53, dofZ 1)]).
  split; [reflexivity|]. split; [reflexivity|]. intros E.
  assert (L : dlt (dofZ 0) (dot_left 0 [(dmake 1 53, dofZ 1); (dofZ 1, dofZ 1); (dmake (-1) 53, dofZ 1)]) = false) by (vm_compute; reflexivity).
  rewrite E in L. assert (R : dlt (dofZ 0) (dot_right 0 [(dmake 1 53, dofZ 1); (dofZ 1, dofZ 1); (dmake (-1) 53, dofZ 1)]) = true) by (vm_compute; reflexivity). congruence.
Qed.
Print Assumptions C90_order_refuted.

(* a sparse matrix skips its zeros: its product with an infinite vector is zero,
   and the same product of dense matrices is not a number, for every BLAS *)
Theorem C90_sparse_infinite_refuted : exists (s : sparse double) (t : tensor double), wf_sparse s /\ wf t /\
  forall dot jdims junk, real_blas dot -> exists d x y, full Dnum junk s = Ok d /\
    mmult_sp_t Dnum jdims junk s t = Ok (mkT [1; 1] [x]) /\ mmult_any Dnum dot jdims junk d t = Ok (mkT [1; 1] [y]) /\ finite x /\ value x = 0%R /\ ~ finite y.
Proof.
  exists (mkS 1 1 [0; 0] [] []), (mkT [1; 1] [B754_infinity false]). split; [|split; [reflexivity|]].
  { change (mkS 1 1 [0; 0] [] []) with (pack 1 [[] : list (nat * double)]). apply pack_wf. constructor; [split; [constructor|intros ? []]|constructor]. }
  intros dot jd junk Hd. exists (mkT [1; 1] [dofZ 0]), (dofZ 0), (dot 0 [(dofZ 0, B754_infinity false)]).
  split; [reflexivity|]. split; [reflexivity|]. split; [reflexivity|]. split; [reflexivity|]. split; [reflexivity|]. intros F.
  destruct (evaluates_close _ _ (Hd 0 _) F) as [A _]. inversion A as [|? ? [_ X] _]; subst. discriminate.
Qed.
Print Assumptions C90_sparse_infinite_refuted.

(* the theorems apply: a product of integers with any BLAS *)
Example C90_meets : forall dot jdims junk, real_blas dot ->
  let a := mkT [1; 2] [dofZ 3; dofZ (-5)] in let b := mkT [2; 1] [dofZ 7; dofZ 4] in
  exists x, mmult_any Dnum dot jdims junk a b = Ok (mkT [1; 1] [x]) /\ finite x /\ value x = 1%R.
Proof.
  intros dot jd junk Hd a b. destruct (C90_mmult dot jd junk a b 1 2 1) as (p & E & W & D & H); auto; try reflexivity.
  destruct (H 0 0) as (x & Ex & _ & _ & R); [lia|lia|]. destruct p as [ds l]. cbn [dims] in D. subst ds. exists x.
  assert (El : l = [x]). { unfold wf in W. cbn in W. destruct l as [|y [|]]; try discriminate. cbn in Ex. congruence. } rewrite El in E. split; [exact E|].
  destruct (R [(3, 7)%Z; ((-5), 4)%Z]) as [F V].
  - assert (Z : forall z, (Z.abs z <= 2 ^ 53)%Z -> finite (dofZ z) /\ value (dofZ z) = IZR z) by (intros; apply dofZ_ok; auto).
    repeat constructor; cbn [fst snd]; apply Z; lia.
  - cbn. lia.
  - split; [exact F|]. rewrite V. reflexivity.
Qed.
Example C90_meets_blas : real_blas dot_left /\ real_blas dot_right /\
  complex_blas (fun q l => (dot_left q (real_terms l), dot_left q (imag_terms l))) /\ never_finite (fun _ _ => (B754_infinity false, B754_nan)).
Proof. split; [apply dot_left_ok|]. split; [apply dot_right_ok|]. split; [intros q l; split; apply dot_left_ok|]. intros x y. split; discriminate. Qed.
