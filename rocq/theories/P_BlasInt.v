(* Property C103: sizes handed to BLAS, LAPACK and ARPACK.
   Vocabulary: Spec.v, S_Fold.v, S_Solve.v, S_BlasInt.v *)
From Verif Require Import Base Spec S_Fold S_Solve S_Arpack S_BlasInt M_Tensor M_Fold M_Svd M_Solve M_Arpack M_BlasInt L_Lin L_Tensor L_Fold L_Arpack L_BlasInt P_Fold P_Solve.
From Coq Require Import ZArith Lia List Bool String.
Import ListNotations.
Local Open Scope nat_scope.

(* Contraction of tensors whose sizes are integers of BLAS: whatever BLAS does,
   it is given the true sizes (g is any BLAS, rounding or not), ... *)
Theorem C103_any_blas : forall bits A (N : numops A) g jdims junk (a b : tensor A) m n p1 l s1 p2 l' s2,
  1 <= bits -> wf a -> wf b -> holds bits (Z.of_nat (List.length (data a))) -> holds bits (Z.of_nat (List.length (data b))) ->
  dims a = p1 ++ l :: s1 -> coord (List.length (dims a)) m (List.length p1) ->
  dims b = p2 ++ l' :: s2 -> coord (List.length (dims b)) n (List.length p2) -> 0 < l ->
  (forall do_conj, fold_int bits N g do_conj jdims junk a m b n = do_fold_with N g do_conj false false jdims junk a m b n) /\
  foldin_int bits g jdims junk a m b n = do_foldin_into_with g false false jdims junk a m b n.
Proof.
  intros bits A N g jd junk a b m n p1 l s1 p2 l' s2 Hb Wa Wb Ha Hc Ea C1 Eb C2 Hl.
  assert (Na : List.length (data a) = prod (dims a)) by (rewrite Wa, Ea; destruct p1; reflexivity).
  assert (Nb : List.length (data b) = prod (dims b)) by (rewrite Wb, Eb; destruct p2; reflexivity).
  unfold holds in *. rewrite Na in Ha. rewrite Nb in Hc.
  split; [intros do_conj; eapply fold_int_same; eauto|eapply foldin_int_same; eauto].
Qed.
Print Assumptions C103_any_blas.

(* ... and with an exact one the result is the contraction, as in C16 *)
Theorem C103_fold : forall bits A (N : numops A) jdims junk (a b : tensor A) m n p1 l s1 p2 s2,
  1 <= bits -> wf a -> wf b -> holds bits (Z.of_nat (List.length (data a))) -> holds bits (Z.of_nat (List.length (data b))) ->
  dims a = p1 ++ l :: s1 -> coord (List.length (dims a)) m (List.length p1) ->
  dims b = p2 ++ l :: s2 -> coord (List.length (dims b)) n (List.length p2) -> 0 < l ->
  exists c, fold_int bits N (gemm N) false jdims junk a m b n = Ok c /\ wf c /\
    dims c = scalar_dims (p1 ++ s1 ++ p2 ++ s2) /\
    forall u1 v1 u2 v2, valid p1 u1 -> valid s1 v1 -> valid p2 u2 -> valid s2 v2 ->
      elt c (scalar_ix (u1 ++ v1 ++ u2 ++ v2)) =
      Some (sum_n N l (fun x => nmul N (val N a (u1 ++ x :: v1)) (val N b (u2 ++ x :: v2)))).
Proof.
  intros bits A N jd junk a b m n p1 l s1 p2 s2 Hb Wa Wb Ha Hc Ea C1 Eb C2 Hl.
  destruct (C103_any_blas bits A N (gemm N) jd junk a b m n p1 l s1 p2 l s2) as [E _]; auto.
  rewrite E. exact (C16_fold A N jd junk a b m n p1 l s1 p2 s2 Wa Wb Ea C1 Eb C2 Hl).
Qed.
Print Assumptions C103_fold.

(* Refuted for larger tensors: the product of two vectors of 2^bits + 1 ones
   is 1.  With integers of 32 bits the vectors take 32 gigabytes each. *)
Definition ones (k : nat) : tensor Z := mkT [k] (repeat 1%Z k).
Theorem C103_fold_refuted : forall bits jdims junk, 2 <= bits ->
  let k := Z.to_nat (2 ^ Z.of_nat bits + 1) in
  wf (ones k) /\
  fold_int bits Znum (gemm Znum) false jdims junk (ones k) 0%Z (ones k) 0%Z = Ok (mkT [1] [1%Z]) /\
  sum_n Znum k (fun x => (val Znum (ones k) [x] * val Znum (ones k) [x])%Z) = (2 ^ Z.of_nat bits + 1)%Z.
Proof.
  intros bits jd junk Hb k. pose proof (imax_pow bits ltac:(lia)) as Hi.
  assert (H0 : (1 <= imax bits)%Z).
  { unfold imax. assert (2 ^ 1 <= 2 ^ (Z.of_nat bits - 1))%Z by (apply Z.pow_le_mono_r; lia). lia. }
  assert (Ik : to_integer bits (Z.of_nat k) = 1%Z).
  { unfold k. rewrite Z2Nat.id by lia. apply to_integer_wrap; lia. }
  assert (I1 : to_integer bits 1 = 1%Z) by (apply to_integer_id; lia).
  assert (Ek : exists r, k = S r) by (exists (Nat.pred k); unfold k; lia).
  assert (W : wf (ones k)) by (unfold wf, ones; cbn [data dims nelem prod fold_right]; rewrite repeat_length; lia).
  split; [exact W|]. split.
  - unfold fold_int. rewrite (do_fold_with_gen Znum (gemm_int bits (gemm Znum)) false jd junk (ones k) (ones k) 0 0 [] k [] [] k []);
      [|reflexivity|reflexivity|split; cbn; lia|split; cbn; lia].
    rewrite Nat.eqb_refl. replace (k =? 0) with false by (destruct Ek as (r & ->); reflexivity). cbn [negb app scalar_dims prod fold_right]. cbv zeta.
    replace (List.length (data (new_tensor junk [1])) =? 0) with false by reflexivity.
    unfold fold_paths_with. cbv zeta. cbn [Nat.eqb].
    unfold gemm_int. cbv zeta. change (Z.of_nat 1) with 1%Z. rewrite Ik, I1. cbn [Z.leb Z.max Z.compare Pos.compare Pos.compare_cont andb assert_ bind Z.to_nat Pos.to_nat Pos.iter_op].
    destruct Ek as (r & ->). reflexivity.
  - assert (S : forall j, j <= k -> sum_n Znum j (fun x => (val Znum (ones k) [x] * val Znum (ones k) [x])%Z) = Z.of_nat j).
    { induction j; intros Hj; [reflexivity|]. cbn [sum_n]. rewrite IHj by lia.
      assert (V : val Znum (ones k) [j] = 1%Z).
      { unfold val. rewrite elt_valid by (repeat constructor; cbn; lia). unfold ones. cbn [data dims lin].
        replace (j + k * 0) with j by lia. destruct (nth_error (repeat 1%Z k) j) eqn:E.
        - apply nth_error_In in E. apply repeat_spec in E. exact E.
        - apply nth_error_None in E. rewrite repeat_length in E. lia. }
      rewrite V. change (nadd Znum) with Z.add. lia. }
    rewrite S by lia. unfold k. apply Z2Nat.id. lia.
Qed.
Print Assumptions C103_fold_refuted.

Lemma dim_0 {A} (a : tensor A) d s : dims a = d :: s -> dimension a 0 = Ok d.
Proof. intros E. exact (dimension_ok a [] d s 0 E eq_refl). Qed.
Lemma dim_1 {A} (a : tensor A) d0 d s : dims a = d0 :: d :: s -> dimension a 1 = Ok d.
Proof. intros E. exact (dimension_ok a [d0] d s 1 E eq_refl). Qed.

(* solve of square systems whose numbers of equations and of right-hand sides are
   integers of LAPACK: the solution, or an abort if the matrix is singular, as in
   C65; real and complex *)
Theorem C103_solve : forall bits A (N : numops A) gesv cplx (a b : tensor A) n rest,
  1 <= bits -> wf a -> wf b -> dims a = [n; n] -> dims b = n :: rest -> 0 < n ->
  holds bits (Z.of_nat n) -> holds bits (Z.of_nat (prod rest)) ->
  gesv_good N gesv n (prod rest) (data a) (data b) ->
  (exists x, solve_int bits gesv cplx a b = Ok x /\ wf x /\ dims x = dims b /\
     forall i w, i < n -> valid rest w -> mulv N a n (at_rest N x w) i = at_rest N b w i) \/
  (solve_int bits gesv cplx a b = Abort /\ singular N a n).
Proof.
  intros bits A N gesv cplx a b n rest Hb Wa Wb Da Db Hn S1 S2 Hg.
  assert (E : solve_int bits gesv cplx a b = solve gesv a b).
  { unfold holds in S1, S2. fold (imax bits) in S1, S2.
    unfold solve_int, solve. rewrite (dim_0 a n [n]), (dim_0 b n rest), (dim_1 a n n []) by auto.
    cbn [bind]. rewrite (to_integer_id bits (Z.of_nat n)) by lia.
    assert (L : List.length (data b) / n = prod rest).
    { rewrite Wb, Db. cbn [nelem prod fold_right]. rewrite Nat.mul_comm. apply Nat.div_mul. lia. }
    replace (Z.of_nat (List.length (data b)) / Z.of_nat n)%Z with (Z.of_nat (prod rest)) by (rewrite <- L; apply Nat2Z.inj_div).
    rewrite (to_integer_id bits (Z.of_nat (prod rest))) by lia. rewrite L.
    rewrite !Nat.eqb_refl, !Z.eqb_refl. replace (n =? 0) with false by lia. replace (Z.of_nat n =? 0)%Z with false by lia.
    replace (0 <=? Z.of_nat n)%Z with true by lia. replace (0 <=? Z.of_nat (prod rest))%Z with true by lia.
    rewrite !Nat2Z.id. destruct cplx; reflexivity. }
  rewrite E. apply C65_solve; auto.
Qed.
Print Assumptions C103_solve.

(* ... and systems that are not square or with right-hand sides of another
   size are refused, as in C65 *)
Theorem C103_solve_rejects : forall bits A gesv cplx (a b : tensor A) r c rs k rest,
  1 <= bits -> dims a = r :: c :: rs -> dims b = k :: rest ->
  holds bits (Z.of_nat r) -> holds bits (Z.of_nat c) -> holds bits (Z.of_nat k) ->
  r <> c \/ r <> k -> solve_int bits gesv cplx a b = Abort.
Proof.
  intros bits A gesv cplx a b r c rs k rest Hb Da Db S1 S2 S3 H. unfold holds in *. fold (imax bits) in *.
  unfold solve_int. rewrite (dim_0 a r _ Da), (dim_0 b k _ Db), (dim_1 a r c _ Da). cbn [bind].
  rewrite !to_integer_id by lia.
  replace (if cplx then (Z.of_nat r =? Z.of_nat c)%Z else (Z.of_nat r =? Z.of_nat c)%Z) with (r =? c) by (destruct cplx; lia).
  destruct (Nat.eqb_spec r c); [|reflexivity]. cbn [assert_ bind]. replace (Z.of_nat r =? Z.of_nat k)%Z with false by lia. reflexivity.
Qed.
Print Assumptions C103_solve_rejects.

(* Refuted for more right-hand sides: of 2^bits + 1 equations 2 x = 2 only the
   first is solved.  LAPACK does what it documents: it solves the right-hand
   sides that it is told of and leaves the rest alone. *)
Theorem C103_solve_refuted : forall bits gesv cplx, 2 <= bits ->
  let k := Z.to_nat (2 ^ Z.of_nat bits + 1) in
  let a := mkT [1; 1] [2%Z] in let b := mkT [1; k] (repeat 2%Z k) in
  (forall nrhs, gesv_good Znum gesv 1 nrhs (data a) (data b)) ->
  (forall n nrhs a lda b ldb p, n * nrhs <= p -> nth p (fst (gesv n nrhs a lda b ldb)) 0%Z = nth p b 0%Z) ->
  snd (gesv 1 1 (data a) 1 (data b) 1) = 0%Z ->
  (exists x, solve_int bits gesv cplx a b = Ok x /\ dims x = [1; k] /\ elt x [0; 1] = Some 2%Z) /\
  wf b /\ forall x, mulv Znum a 1 (at_rest Znum x [1]) 0 = at_rest Znum b [1] 0 -> elt x [0; 1] <> Some 2%Z.
Proof.
  intros bits gesv cplx Hb k a b Hg Hr Hs. pose proof (imax_pow bits ltac:(lia)) as Hi.
  assert (H0 : (1 <= imax bits)%Z).
  { unfold imax. assert (2 ^ 1 <= 2 ^ (Z.of_nat bits - 1))%Z by (apply Z.pow_le_mono_r; lia). lia. }
  assert (Ek : Z.of_nat k = (2 ^ Z.of_nat bits + 1)%Z) by (unfold k; rewrite Z2Nat.id; lia).
  assert (K2 : 2 <= k). { assert (2 ^ 1 <= 2 ^ Z.of_nat bits)%Z by (apply Z.pow_le_mono_r; lia). lia. }
  assert (Ik : to_integer bits (2 ^ Z.of_nat bits + 1) = 1%Z) by (apply to_integer_wrap; lia).
  assert (I1 : to_integer bits 1 = 1%Z) by (apply to_integer_id; lia).
  assert (B1 : at_rest Znum b [1] 0 = 2%Z).
  { unfold at_rest, val. rewrite elt_valid by (repeat constructor; cbn; lia). unfold b. cbn [data dims lin].
    destruct (nth_error (repeat 2%Z k) (0 + 1 * (1 + k * 0))) eqn:E.
    - apply nth_error_In in E. apply repeat_spec in E. exact E.
    - apply nth_error_None in E. rewrite repeat_length in E. lia. }
  split; [|split].
  - unfold solve_int. rewrite (dim_0 a 1 [1]), (dim_0 b 1 [k]), (dim_1 a 1 1 []) by reflexivity. cbn [bind].
    change (Z.of_nat 1) with 1%Z. rewrite I1.
    assert (Lb : List.length (data b) = k) by (unfold b; cbn [data]; apply repeat_length).
    rewrite Lb, Z.div_1_r, Ek, Ik.
    replace (if cplx then (1 =? 1)%Z else (1 =? 1)%Z) with true by (destruct cplx; reflexivity). cbn [assert_ bind Z.eqb Pos.eqb Z.leb Z.compare].
    change (Z.to_nat 1) with 1.
    pose proof (Hg 1) as G. unfold gesv_good in G. specialize (Hr 1 1 (data a) 1 (data b) 1).
    destruct (gesv 1 1 (data a) 1 (data b) 1) as [x info] eqn:Eg. destruct G as (Lx & _).
    cbn [snd] in Hs. subst info. eexists. cbn [assert_ bind Z.eqb]. split; [reflexivity|]. split; [reflexivity|].
    rewrite elt_valid by (repeat constructor; cbn; lia). unfold b. cbn [data dims lin]. replace (0 + 1 * (1 + k * 0)) with 1 by lia.
    specialize (Hr 1 ltac:(lia)). cbn [fst] in Hr. unfold b in Hr, Lx. cbn [data] in Hr, Lx.
    rewrite (nth_error_nth' x 0%Z) by (rewrite Lx, repeat_length; lia). rewrite Hr.
    f_equal. apply (repeat_spec k). apply nth_In. rewrite repeat_length. lia.
  - unfold wf, b. cbn [data dims nelem prod fold_right]. rewrite repeat_length. lia.
  - intros x Hx Ex. rewrite B1 in Hx. unfold mulv, at_rest in Hx. cbn [sum_n] in Hx. unfold val at 2 in Hx. rewrite Ex in Hx.
    unfold a, val, elt in Hx. cbn in Hx. discriminate Hx.
Qed.
Print Assumptions C103_solve_refuted.

(* Refuted: solve of complex tensors takes a matrix with one row and
   2^bits + 1 columns for a square one *)
Theorem C103_solve_square_refuted : forall bits A gesv (a b : tensor A), 2 <= bits ->
  dims a = [1; Z.to_nat (2 ^ Z.of_nat bits + 1)] -> dims b = [1] -> wf b ->
  snd (gesv 1 1 (data a) 1 (data b) 1) = 0%Z ->
  exists x, solve_int bits gesv true a b = Ok x /\ solve_int bits gesv false a b = Abort.
Proof.
  intros bits A gesv a b Hb Da Db Wb Hg. pose proof (imax_pow bits ltac:(lia)) as Hi.
  assert (H0 : (1 <= imax bits)%Z).
  { unfold imax. assert (2 ^ 1 <= 2 ^ (Z.of_nat bits - 1))%Z by (apply Z.pow_le_mono_r; lia). lia. }
  assert (Ik : to_integer bits (2 ^ Z.of_nat bits + 1) = 1%Z) by (apply to_integer_wrap; lia).
  assert (I1 : to_integer bits 1 = 1%Z) by (apply to_integer_id; lia).
  assert (Lb : List.length (data b) = 1) by (rewrite Wb, Db; reflexivity).
  unfold solve_int. rewrite (dim_0 a 1 _ Da), (dim_0 b 1 _ Db), (dim_1 a 1 _ _ Da). cbn [bind].
  change (Z.of_nat 1) with 1%Z. rewrite I1, Lb. rewrite Z2Nat.id by lia. rewrite Ik.
  replace (1 =? 2 ^ Z.of_nat bits + 1)%Z with false by lia.
  cbn [assert_ bind Z.eqb Pos.eqb Z.leb Z.compare]. change (to_integer bits (Z.of_nat 1 / 1)) with (to_integer bits 1). rewrite I1.
  cbn [assert_ bind Z.leb Z.compare]. change (Z.to_nat 1) with 1.
  destruct (gesv 1 1 (data a) 1 (data b) 1) as [x info]. cbn [snd] in Hg. subst info. eexists. split; reflexivity.
Qed.
Print Assumptions C103_solve_square_refuted.

(* svd of matrices whose sizes are integers of LAPACK: as without a limit (C67) *)
Theorem C103_svd : forall bits A R gesvd (junk : nat -> A) (junkr : nat -> R) (t : tensor A) wantU wantV economic,
  1 <= bits -> (forall d, In d (dims t) -> holds bits (Z.of_nat d)) ->
  svd_int bits gesvd junk junkr t wantU wantV economic = svd gesvd junk junkr t wantU wantV economic.
Proof.
  intros bits A R gesvd junk junkr t wantU wantV economic Hb Hd.
  unfold svd_int, svd. destruct (dims t) as [|m [|n r]] eqn:D.
  - unfold dimension. rewrite D. reflexivity.
  - rewrite (dim_0 t m [] D). unfold dimension. rewrite D. reflexivity.
  - rewrite (dim_0 t m _ D), (dim_1 t m n r D). cbn [bind].
    assert (S1 : holds bits (Z.of_nat m)) by (apply Hd; simpl; auto). assert (S2 : holds bits (Z.of_nat n)) by (apply Hd; simpl; auto).
    unfold holds in S1, S2. rewrite !to_integer_id by (unfold imax; lia). rewrite !Nat2Z.id.
    replace ((0 <=? Z.of_nat m) && (0 <=? Z.of_nat n))%Z with true by lia. reflexivity.
Qed.
Print Assumptions C103_svd.

(* Refuted for larger ones: of a row with 2^bits + 1 elements svd returns a VT
   with one column *)
Theorem C103_svd_refuted : forall bits A R gesvd (junk : nat -> A) (junkr : nat -> R) (t : tensor A) economic, 2 <= bits ->
  dims t = [1; Z.to_nat (2 ^ Z.of_nat bits + 1)] -> wf t ->
  exists s U VT, svd_int bits gesvd junk junkr t true true economic = Ok (s, Some U, Some VT) /\ dims VT = [1; 1].
Proof.
  intros bits A R gesvd junk junkr t economic Hb D W. pose proof (imax_pow bits ltac:(lia)) as Hi.
  assert (H0 : (1 <= imax bits)%Z).
  { unfold imax. assert (2 ^ 1 <= 2 ^ (Z.of_nat bits - 1))%Z by (apply Z.pow_le_mono_r; lia). lia. }
  set (k := Z.to_nat (2 ^ Z.of_nat bits + 1)) in *.
  assert (Ek : Z.of_nat k = (2 ^ Z.of_nat bits + 1)%Z) by (unfold k; rewrite Z2Nat.id; lia).
  assert (Ik : to_integer bits (Z.of_nat k) = 1%Z) by (rewrite Ek; apply to_integer_wrap; lia).
  assert (I1 : to_integer bits 1 = 1%Z) by (apply to_integer_id; lia).
  assert (Dx : exists x l, data t = x :: l).
  { unfold wf in W. rewrite D in W. cbn [nelem prod fold_right] in W. destruct (data t) as [|x l]; [cbn in W; lia|eauto]. }
  destruct Dx as (x & l & Dx).
  unfold svd_int. rewrite (dim_0 t 1 _ D), (dim_1 t 1 _ _ D). cbn [bind]. change (0 <? 1) with true. replace (0 <? k) with true by lia. cbn [assert_ bind].
  rewrite D. cbn [List.length Nat.eqb assert_ bind]. change (Z.of_nat 1) with 1%Z. rewrite I1, Ik. cbn [Z.leb Z.compare andb assert_ bind]. change (Z.to_nat 1) with 1.
  cbn [Nat.min option_map]. rewrite Dx.
  replace (if economic then 1 else 1) with 1 by (destruct economic; reflexivity).
  assert (E : forall j : job, j = JobS \/ j = JobA ->
    exists i s u v, call_gesvd gesvd j j 1 1 (x :: l) 1 (data (new_tensor junkr [1])) (data (new_tensor junk [1; 1])) 1 (data (new_tensor junk [1; 1])) 1 = Ok (i, s, u, v)).
  { intros j Hj. unfold call_gesvd.
    assert (J : job_size j 1 (Nat.min 1 1) = 1) by (destruct Hj as [-> | ->]; reflexivity). cbn [Nat.min Nat.max] in *. rewrite J.
    replace (match j with JobN => true | _ => 1 <=? 1 end) with true by (destruct Hj as [-> | ->]; reflexivity).
    cbn [Nat.leb andb assert_ bind]. unfold load. cbn [Nat.mul Nat.add seq mapM bind]. cbn [Nat.modulo Nat.div Nat.divmod fst snd Nat.mul Nat.add Nat.sub rd nth_error bind].
    unfold rd. cbn [nth_error bind]. destruct (gesvd j j 1 1 [x]) as [[[i s'] U] VT]. do 4 eexists. reflexivity. }
  destruct economic.
  - destruct (E JobS ltac:(auto)) as (i & s & u & v & E1).
    match goal with |- context [bind ?c _] => replace c with (Ok (i, s, u, v)) by (symmetry; exact E1) end.
    cbn [bind]. do 3 eexists. split; reflexivity.
  - destruct (E JobA ltac:(auto)) as (i & s & u & v & E1).
    match goal with |- context [bind ?c _] => replace c with (Ok (i, s, u, v)) by (symmetry; exact E1) end.
    cbn [bind]. do 3 eexists. split; reflexivity.
Qed.
Print Assumptions C103_svd_refuted.

(* The constructor of the ARPACK object, for fewer eigenvalues than rows: if what
   ARPACK needs is within the integers, the sizes are those of C88 and no
   computation overflows. *)
Theorem C103_arpack : forall bits E T S real_problem (default_tol : T) (junk : nat -> E) (junk_state : S) n t code nev o,
  5 <= bits -> arpack_code real_problem t = Some code -> 0 < nev -> nev < n ->
  arpack_new real_problem default_tol junk junk_state n (eigtype_int t) nev = Ok o ->
  arpack_holds bits real_problem (Z.of_nat n) (Z.of_nat nev) ->
  exists z, arpack_int bits real_problem (Z.of_nat n) (Z.of_nat nev) = Ok z /\
    z_n z = Z.of_nat (p_n (ob_problem o)) /\ z_nev z = Z.of_nat (p_nev (ob_problem o)) /\
    z_ncv z = Z.of_nat (p_ncv (ob_problem o)) /\ z_lworkl z = Z.of_nat (p_lworkl (ob_problem o)) /\
    z_resid z = Z.of_nat (List.length (io_resid (ob_io o))) /\ z_workd z = Z.of_nat (List.length (io_workd (ob_io o))) /\
    z_V z = (z_n z * z_ncv z)%Z /\ z_workl z = z_lworkl z /\ z_workv z = (3 * z_ncv z)%Z /\ z_rwork z = z_ncv z.
Proof.
  intros bits E T S rp tol junk js n t code nev o Hb Hc H0 H1 Ho Hh.
  rewrite (arpack_new_ok rp tol junk js n t code nev Hc H0 H1) in Ho. injection Ho as <-.
  rewrite (arpack_int_value bits rp (Z.of_nat n) (Z.of_nat nev)) by (auto; lia).
  eexists. split; [reflexivity|]. cbn [z_n z_nev z_ncv z_lworkl z_resid z_V z_workd z_workl z_workv z_rwork ob_problem ob_io init_problem p_n p_nev p_ncv p_lworkl init_io io_resid io_workd].
  rewrite !length_alloc. unfold basis, work.
  repeat split; try lia; destruct rp; lia.
Qed.
Print Assumptions C103_arpack.

(* Otherwise a signed computation overflows: undefined behaviour. *)
Theorem C103_arpack_overflow : forall bits real_problem n nev,
  (5 <= bits)%nat -> (0 < nev)%Z -> (nev < n)%Z -> holds bits n ->
  (arpack_int bits real_problem n nev = UB <-> ~ arpack_holds bits real_problem n nev).
Proof.
  intros bits rp n nev Hb H0 H1 Hn. split.
  - intros E Hh. rewrite (arpack_int_value bits rp n nev) in E by auto. discriminate E.
  - intros Hh. apply arpack_int_over; auto.
Qed.
Print Assumptions C103_arpack_overflow.

(* Refuted: with integers of 32 bits, the lowest eigenvalue of a symmetric
   operator on the states of 27 spins is out of reach, although it exists and
   the vectors of ARPACK hold 2^27 elements *)
Theorem C103_arpack_refuted :
  holds 32 (2 ^ 27) /\ arpack_int 32 true (2 ^ 27) 1 = UB /\ arpack_int 32 true (2 ^ 26) 1 <> UB.
Proof. split; [|split]; [unfold holds; lia|reflexivity|discriminate]. Qed.
Print Assumptions C103_arpack_refuted.

(* Refuted: if n itself is too large, it is cut without a word *)
Theorem C103_arpack_cut_refuted : forall real_problem,
  exists z, arpack_int 32 real_problem (2 ^ 32 + 10) 3 = Ok z /\ z_n z = 10%Z /\ z_V z = 100%Z.
Proof. intros [|]; eexists; (split; [reflexivity|split; reflexivity]). Qed.
Print Assumptions C103_arpack_cut_refuted.

(* a LAPACK for the system of C103_solve_refuted: the hypotheses are met *)
Example C103_solve_nonvacuous :
  let gesv := fun (n nrhs : nat) (_ : list Z) (_ : nat) (b : list Z) (_ : nat) =>
    if n =? 1 then (map (fun x => (x / 2)%Z) (firstn nrhs b) ++ skipn nrhs b, 0%Z) else (b, 0%Z) in
  (forall k nrhs, gesv_good Znum gesv 1 nrhs [2%Z] (repeat 2%Z k)) /\
  (forall n nrhs a lda b ldb p, n * nrhs <= p -> nth p (fst (gesv n nrhs a lda b ldb)) 0%Z = nth p b 0%Z) /\
  snd (gesv 1 1 [2%Z] 1 [2%Z; 2%Z] 1) = 0%Z /\
  solve_int 2 gesv true (mkT [1; 1] [2%Z]) (mkT [1; 5] [2; 2; 2; 2; 2]%Z) = Ok (mkT [1; 5] [1; 2; 2; 2; 2]%Z) /\
  solve_int 8 gesv true (mkT [1; 1] [2%Z]) (mkT [1; 5] [2; 2; 2; 2; 2]%Z) = Ok (mkT [1; 5] [1; 1; 1; 1; 1]%Z).
Proof.
  cbv zeta. split; [|split; [|split; [|split]]]; [| |reflexivity|reflexivity|reflexivity].
  - intros k nrhs. unfold gesv_good. cbn [Nat.eqb]. split; [rewrite app_length, map_length, firstn_length, skipn_length; lia|].
    split; [|intros H; elim H; reflexivity].
    intros _ i j Hi Hj. assert (i = 0) by lia. subst i. cbn [sum_n Nat.mul Nat.add nth]. rewrite Nat.add_0_r.
    assert (E : nth j (map (fun x => (x / 2)%Z) (firstn nrhs (repeat 2%Z k)) ++ skipn nrhs (repeat 2%Z k)) 0%Z = (nth j (repeat 2%Z k) 0 / 2)%Z).
    { destruct (Nat.lt_ge_cases j k).
      - rewrite app_nth1 by (rewrite map_length, firstn_length, repeat_length; lia).
        rewrite (nth_indep _ 0%Z ((fun x => (x / 2)%Z) 0%Z)) by (rewrite map_length, firstn_length, repeat_length; lia). rewrite (map_nth (fun x => (x / 2)%Z)).
        f_equal. rewrite <- (firstn_skipn nrhs (repeat 2%Z k)) at 2. rewrite app_nth1 by (rewrite firstn_length, repeat_length; lia). reflexivity.
      - rewrite !nth_overflow; [reflexivity|rewrite repeat_length; lia|].
        rewrite app_length, map_length, firstn_length, skipn_length, repeat_length; lia. }
    unfold Znum. cbn [nzero nadd nmul]. change (nzero Znum) with 0%Z. rewrite E.
    destruct (Nat.lt_ge_cases j k).
    + replace (nth j (repeat 2%Z k) 0%Z) with 2%Z; [reflexivity|]. symmetry. apply (repeat_spec k). apply nth_In. rewrite repeat_length. lia.
    + rewrite nth_overflow by (rewrite repeat_length; lia). reflexivity.
  - intros n nrhs a lda b ldb p H. destruct (n =? 1) eqn:E; [|reflexivity]. apply Nat.eqb_eq in E. subst n. cbn [fst].
    destruct (Nat.lt_ge_cases p (List.length b)).
    + rewrite app_nth2 by (rewrite map_length, firstn_length; lia). rewrite map_length, firstn_length.
      rewrite <- (firstn_skipn nrhs b) at 3. rewrite (app_nth2 (firstn nrhs b)) by (rewrite firstn_length; lia). rewrite firstn_length. reflexivity.
    + rewrite !nth_overflow; [reflexivity|lia|]. rewrite app_length, map_length, firstn_length, skipn_length. lia.
Qed.

(* 100 eigenvalues of a matrix with a million rows, and integers of 32 bits *)
Example C103_arpack_nonvacuous : forall real_problem,
  arpack_code real_problem M_Eig.LargestReal <> None /\ arpack_holds 32 real_problem (Z.of_nat 1000 * Z.of_nat 1000) 100 /\
  ~ arpack_holds 32 real_problem (Z.of_nat 1000 * Z.of_nat 1000 * 100) 100 /\ holds 32 (Z.of_nat 1000 * Z.of_nat 1000 * 100).
Proof.
  intros rp. split; [destruct rp; discriminate|]. unfold arpack_holds, holds, work, basis.
  split; [|split]; [destruct rp; repeat split; discriminate| |discriminate].
  intros (_ & H & _). apply H. reflexivity.
Qed.

Example C103_fold_nonvacuous : forall jdims junk,
  let a := mkT [2; 3] [1; 2; 3; 4; 5; 6]%Z in let b := mkT [3; 2] [1; 0; 2; 3; 1; 1]%Z in
  wf a /\ wf b /\ holds 4 (Z.of_nat (List.length (data a))) /\ holds 4 (Z.of_nat (List.length (data b))) /\
  fold_int 4 Znum (gemm Znum) false jdims junk a (-1)%Z b 0%Z = Ok (mkT [2; 2] [11; 14; 11; 16]%Z) /\
  mmult_int 4 Znum (gemm Znum) jdims junk a b = Ok (mkT [2; 2] [11; 14; 11; 16]%Z) /\
  (forall d, In d (dims a) -> holds 4 (Z.of_nat d)) /\
  solve_int 4 (fun _ _ _ _ b _ => (b, 0%Z)) true a b = Abort.
Proof.
  intros jd junk. cbv zeta. split; [reflexivity|]. split; [reflexivity|]. split; [discriminate|]. split; [discriminate|].
  split; [|split; [|split]]; [| | |reflexivity].
  - unfold fold_int, do_fold_with. vm_compute. reflexivity.
  - unfold mmult_int, fold_int, do_fold_with. vm_compute. reflexivity.
  - intros d [<-|[<-|[]]]; discriminate.
Qed.
