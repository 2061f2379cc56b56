(* Complex numbers; scprod and products with sparse matrices in doubles. *)
From Coq Require Import Reals Lra Permutation.
From Flocq Require Import Core BinarySingleNaN.
From Verif Require Import Base Spec S_Fold S_Reduce S_Sparse M_Tensor M_Reduce M_Sparse M_Double S_Double L_Double S_DoubleReduce M_DoubleReduce L_DoubleReduce
  L_Fold L_Sparse L_Sparse6 L_Sparse7 S_FoldDouble M_FoldDouble L_FoldDouble.
Local Open Scope R_scope.

(* ---- changes of sign ---- *)
Definition sg (b : bool) (x : double) : double := if b then dopp x else x.
Definition sgn (b : bool) : R := if b then -1 else 1.
Definition flipped (s : bool) (p q : double * double) : Prop :=
  exists a b, q = (sg a (fst p), sg b (snd p)) /\ xorb a b = s.
Lemma sg_finite b x : finite (sg b x) <-> finite x.
Proof. destruct b; [apply dopp_finite|tauto]. Qed.
Lemma sg_value b x : value (sg b x) = sgn b * value x.
Proof. destruct b; cbn [sg sgn]; [rewrite dopp_value|]; ring. Qed.
Lemma sg_sg b x : sg b (sg b x) = x.
Proof. destruct b; [apply dopp_dopp|reflexivity]. Qed.
Lemma sgn_mul a b : sgn a * sgn b = sgn (xorb a b).
Proof. destruct a, b; cbn; ring. Qed.
Lemma flipped_sums s l m : Forall2 (flipped s) l m -> exact m = sgn s * exact l /\ exact_abs m = exact_abs l /\ length m = length l /\ (all_finite m <-> all_finite l).
Proof.
  intros H. induction H as [|p q l m Hp H (I1 & I2 & I3 & I4)].
  - unfold exact, exact_abs, all_finite. cbn. split; [ring|]. split; [reflexivity|]. split; [reflexivity|]. tauto.
  - destruct p as [x y], Hp as (a & b & -> & <-). cbn [fst snd]. rewrite !exact_cons, !exact_abs_cons, I1, I2, !sg_value, <- !sgn_mul.
    split; [ring|]. split; [|split; [cbn; lia|]].
    + f_equal. replace (sgn a * value x * (sgn b * value y)) with (sgn a * sgn b * (value x * value y)) by ring. rewrite Rabs_mult.
      replace (Rabs (sgn a * sgn b)) with 1; [ring|]. destruct a, b; cbn; unfold Rabs; destruct (Rcase_abs _); lra.
    + unfold all_finite in *. rewrite !Forall_cons_iff. cbn [fst snd]. rewrite !sg_finite. tauto.
Qed.
Lemma flipped_rounded s l m x y : Forall2 (flipped s) l m -> finite y <-> finite x -> value y = sgn s * value x -> rounded l x -> rounded m y.
Proof.
  intros H Fy Vy (R1 & R2 & R3). destruct (flipped_sums s l m H) as (E1 & E2 & E3 & E4). split; [|split].
  - intros F. destruct R1 as [A B]; [tauto|]. split; [tauto|]. rewrite E1, E2, E3, Vy.
    replace (sgn s * value x - sgn s * exact l) with (sgn s * (value x - exact l)) by ring. rewrite Rabs_mult.
    replace (Rabs (sgn s)) with 1; [lra|]. destruct s; cbn; unfold Rabs; destruct (Rcase_abs _); lra.
  - intros F B. apply Fy, R2; [tauto|]. rewrite <- E2, <- E3. exact B.
  - intros zs HF B. set (zg := fun b : bool => if b then (-1)%Z else 1%Z).
    assert (K : exists ws, Forall2 integer_pair l ws /\ zprod zs = (zg s * zprod ws)%Z /\ zabs zs = zabs ws).
    { clear - H HF. revert zs HF. induction H as [|p q l m Hp H IH]; intros zs HF; inversion HF as [|? z ? zs' Hz HF']; subst.
      - exists []. split; [constructor|]. split; [unfold zg; cbn; lia|reflexivity].
      - destruct (IH _ HF') as (ws & W1 & W2 & W3). destruct Hp as (a & b & -> & Eab), p as [x y], z as [z1 z2]. cbn [fst snd] in *.
        exists ((zg a * z1, zg b * z2)%Z :: ws). destruct Hz as (F1 & V1 & F2 & V2). cbn [fst snd] in *. rewrite sg_finite in F1, F2. rewrite sg_value in V1, V2.
        split; [constructor; [|exact W1]|].
        + split; [exact F1|]. split; [|split; [exact F2|]]; cbn [fst snd]; rewrite mult_IZR.
          * rewrite <- V1. unfold zg. destruct a; cbn [sgn] in *; lra.
          * rewrite <- V2. unfold zg. destruct b; cbn [sgn] in *; lra.
        + cbn [map fold_right fst snd]. rewrite W2, W3. subst s. unfold zg. destruct a, b; cbn [xorb]; split; lia. }
    destruct K as (ws & W1 & W2 & W3). rewrite W3 in B. destruct (R3 ws W1 B) as [F V]. split; [tauto|]. rewrite Vy, V, W2, mult_IZR. f_equal. unfold zg. destruct s; cbn [sgn]; reflexivity.
Qed.
Lemma flipped_same p : flipped false p p.
Proof. exists false, false. destruct p. split; reflexivity. Qed.
Lemma conj_rounded f l x : complex_rounded l x -> complex_rounded (map (fun p => (nconj (Cnum f) (fst p), nconj (Cnum f) (snd p))) l) (nconj (Cnum f) x).
Proof.
  intros [R1 R2]. cbn [nconj Cnum]. split; cbn [cconj fst snd].
  - eapply (flipped_rounded false); [|reflexivity| |exact R1]; [|cbn [sgn]; ring]. unfold real_terms. clear. induction l as [|[[a b] [c d]] l IH]; cbn; [constructor|].
    constructor; [apply flipped_same|]. constructor; [|exact IH]. exists true, true. cbn. split; reflexivity.
  - eapply (flipped_rounded true); [|apply dopp_finite| |exact R2]; [|rewrite dopp_value; cbn [sgn]; ring]. unfold imag_terms. clear. induction l as [|[[a b] [c d]] l IH]; cbn; [constructor|].
    constructor; [exists false, true; cbn; split; reflexivity|]. constructor; [|exact IH]. exists true, false. cbn. split; reflexivity.
Qed.
Lemma cconj_cconj f x : nconj (Cnum f) (nconj (Cnum f) x) = x.
Proof. destruct x as [a b]. cbn. unfold cconj. cbn. rewrite dopp_dopp. reflexivity. Qed.

(* ---- loops of complex products ---- *)
Lemma dsub_opp x y : dsub x y = dadd x (dopp y).
Proof. destruct x as [sx|sx| |sx mx ex Hx], y as [sy|sy| |sy my ey Hy]; reflexivity. Qed.

Lemma real_terms_app l m : real_terms (l ++ m) = real_terms l ++ real_terms m.
Proof. unfold real_terms. rewrite !flat_map_concat_map, map_app, concat_app. reflexivity. Qed.
Lemma imag_terms_app l m : imag_terms (l ++ m) = imag_terms l ++ imag_terms m.
Proof. unfold imag_terms. rewrite !flat_map_concat_map, map_app, concat_app. reflexivity. Qed.
Definition plain (x y : complex) : complex :=
  (dsub (dmul (fst x) (fst y)) (dmul (snd x) (snd y)), dadd (dmul (fst x) (snd y)) (dmul (snd x) (fst y))).
Lemma plain_evaluates x y : evaluates (real_terms [(x, y)]) (fst (plain x y)) /\ evaluates (imag_terms [(x, y)]) (snd (plain x y)).
Proof.
  destruct x as [a b], y as [c d]. unfold plain. cbn [fst snd real_terms imag_terms flat_map app]. split.
  - rewrite dsub_opp. apply (ev_add [(a, c)] [(dopp b, d)]); [apply ev_mul|]. apply (ev_opp [(b, d)]), ev_mul.
  - apply (ev_add [(a, d)] [(b, c)]); apply ev_mul.
Qed.
Definition csum (mul : complex -> complex -> complex) (l : list (complex * complex)) (acc : complex) : complex :=
  fold_left (fun acc p => cadd acc (mul (fst p) (snd p))) l acc.
Lemma plain_sum l : forall m acc, evaluates (real_terms m) (fst acc) /\ evaluates (imag_terms m) (snd acc) ->
  evaluates (real_terms (m ++ l)) (fst (csum plain l acc)) /\ evaluates (imag_terms (m ++ l)) (snd (csum plain l acc)).
Proof.
  induction l as [|[x y] l IH]; intros m acc [H1 H2]; [rewrite app_nil_r; auto|]. cbn [csum fold_left]. replace (m ++ (x, y) :: l) with ((m ++ [(x, y)]) ++ l) by (rewrite <- app_assoc; reflexivity).
  apply IH. cbn [fst snd]. destruct (plain_evaluates x y) as [P1 P2]. unfold cadd. cbn [fst snd]. rewrite real_terms_app, imag_terms_app. split; apply ev_add; auto.
Qed.
(* equal, or both no finite numbers *)
Definition alike (x y : double) : Prop := x = y \/ (~ finite x /\ ~ finite y).
Lemma alike_add x y v w : alike x y -> alike v w -> alike (dadd x v) (dadd y w).
Proof.
  intros [->|[H1 H2]] [->|[H3 H4]]; [left; reflexivity| | |]; right; split; intros F; apply dadd_inv in F as (F1 & F2 & _); contradiction.
Qed.
Lemma cmul_alike f x y : never_finite f -> alike (fst (cmul f x y)) (fst (plain x y)) /\ alike (snd (cmul f x y)) (snd (plain x y)).
Proof.
  intros Hf. unfold cmul. fold (fst (plain x y)). fold (snd (plain x y)).
  change (dsub (dmul (fst x) (fst y)) (dmul (snd x) (snd y))) with (fst (plain x y)). change (dadd (dmul (fst x) (snd y)) (dmul (snd x) (fst y))) with (snd (plain x y)).
  destruct (is_nan (fst (plain x y)) && is_nan (snd (plain x y))) eqn:E; [|split; left; reflexivity].
  apply andb_prop in E as [E1 E2]. destruct (Hf x y) as [F1 F2].
  assert (NF : forall z : double, is_nan z = true -> ~ finite z) by (unfold finite; intros [s|s| |s m e Hm]; cbn; congruence).
  split; right; auto.
Qed.
Lemma csum_alike f l : never_finite f -> forall a b, alike (fst a) (fst b) /\ alike (snd a) (snd b) ->
  alike (fst (csum (cmul f) l a)) (fst (csum plain l b)) /\ alike (snd (csum (cmul f) l a)) (snd (csum plain l b)).
Proof.
  intros Hf. induction l as [|[x y] l IH]; intros a b [H1 H2]; [auto|]. cbn [csum fold_left]. apply IH. unfold cadd. cbn [fst snd].
  destruct (cmul_alike f x y Hf) as [A1 A2]. split; apply alike_add; auto.
Qed.
Lemma alike_rounded l x y : alike x y -> rounded l y -> rounded l x.
Proof.
  intros [->|[H1 H2]]; [auto|]. intros (R1 & R2 & R3). split; [|split].
  - intros F. contradiction.
  - intros F B. destruct H2. apply R2; auto.
  - intros zs HF B. destruct H2. apply (R3 zs HF B).
Qed.
Lemma dofZ_0 : dofZ 0 = B754_zero false. Proof. reflexivity. Qed.
Lemma csum_rounded f l : never_finite f -> complex_rounded l (csum (cmul f) l (nzero (Cnum f))).
Proof.
  intros Hf. destruct (csum_alike f l Hf (nzero (Cnum f)) (nzero (Cnum f))) as [A1 A2]; [split; left; reflexivity|].
  destruct (plain_sum l [] (nzero (Cnum f))) as [P1 P2]; [split; cbn [fst snd nzero Cnum real_terms imag_terms flat_map]; rewrite dofZ_0; apply ev_zero|].
  split; eapply alike_rounded; eauto; apply evaluates_rounded; auto.
Qed.
Lemma scprod_any {A} (N : numops A) (a b : tensor A) : length (data a) = length (data b) ->
  scprod N a b = Ok (fold_left (fun acc p => nadd N acc (nmul N (fst p) (nconj N (snd p)))) (combine (data a) (data b)) (nzero N)).
Proof.
  intros HL. unfold scprod. generalize (data a) as l, (data b) as m, HL. clear a b HL. intros l m HL.
  assert (G : forall k, (k <= length l)%nat -> for_ k (fun i output => x <- rd l i ;; y <- rd m i ;; Ok (nadd N output (nmul N x (nconj N y)))) (nzero N) =
    Ok (fold_left (fun acc p => nadd N acc (nmul N (fst p) (nconj N (snd p)))) (firstn k (combine l m)) (nzero N))).
  { induction k as [|k IH]; intros Hk; [reflexivity|]. rewrite for_S. rewrite IH by lia. cbn [bind].
    destruct (nth_error l k) as [x|] eqn:Ex; [|apply nth_error_None in Ex; lia]. destruct (nth_error m k) as [y|] eqn:Ey; [|apply nth_error_None in Ey; lia].
    unfold rd. rewrite Ex, Ey. cbn [bind]. assert (En : nth_error (combine l m) k = Some (x, y)).
    { clear IH Hk. revert m HL k Ex Ey. induction l as [|x0 l IHl]; intros [|y0 m] HL [|k] Ex Ey; cbn in *; try discriminate; [congruence|]. apply IHl; auto. }
    f_equal. rewrite (firstn_S_nth _ _ _ En), fold_left_app. reflexivity. }
  rewrite G by lia. f_equal. f_equal. apply firstn_all2. rewrite combine_length. lia.
Qed.
Lemma scprod_complex_rounded f (a b : tensor complex) : never_finite f -> length (data a) = length (data b) ->
  exists x, scprod_complex f a b = Ok x /\ complex_rounded (map (fun p => (fst p, cconj (snd p))) (combine (data a) (data b))) x.
Proof.
  intros Hf HL. unfold scprod_complex. rewrite scprod_any by exact HL. eexists. split; [reflexivity|].
  replace (fold_left _ (combine (data a) (data b)) _) with (csum (cmul f) (map (fun p => (fst p, cconj (snd p))) (combine (data a) (data b))) (nzero (Cnum f))); [apply csum_rounded, Hf|].
  unfold csum. generalize (nzero (Cnum f)) as acc. induction (combine (data a) (data b)) as [|p l IH]; intros acc; [reflexivity|]. cbn [map fold_left fst snd]. apply IH.
Qed.

(* ---- rows of sparse matrices ---- *)
Lemma rowsum_rounded r f : rounded (row_terms r f) (rowsum Dnum r f).
Proof.
  apply evaluates_rounded. unfold rowsum. assert (G : forall r m acc, evaluates m acc -> evaluates (m ++ row_terms r f) (fold_left (fun acc p => nadd Dnum acc (nmul Dnum (snd p) (f (fst p)))) r acc)).
  { clear r. induction r as [|[j x] r IH]; intros m acc H; [rewrite app_nil_r; exact H|]. cbn [fold_left row_terms map].
    replace (m ++ (snd (j, x), f (fst (j, x))) :: map (fun e => (snd e, f (fst e))) r) with ((m ++ [(x, f j)]) ++ row_terms r f) by (rewrite <- app_assoc; reflexivity).
    apply IH. apply ev_add; [exact H|apply ev_mul]. }
  apply (G r []). cbn [nzero Dnum]. rewrite dofZ_0. apply ev_zero.
Qed.
Lemma rowsum_complex f r g : never_finite f -> complex_rounded (row_terms r g) (rowsum (Cnum f) r g).
Proof.
  intros Hf. replace (rowsum (Cnum f) r g) with (csum (cmul f) (row_terms r g) (nzero (Cnum f))); [apply csum_rounded, Hf|].
  unfold rowsum, csum, row_terms. generalize (nzero (Cnum f)) as acc. induction r as [|p r IH]; intros acc; [reflexivity|]. cbn [map fold_left fst snd]. apply IH.
Qed.
Lemma mmult_sp_t_rows {A} (N : numops A) jd junk (s : sparse A) (t : tensor A) ds : wf_sparse s -> wf t -> dims t = scols s :: ds ->
  exists p, mmult_sp_t N jd junk s t = Ok p /\ wf p /\ dims p = srows s :: ds /\
    forall i v, (i < srows s)%nat -> valid ds v -> elt p (i :: v) = Some (rowsum N (row_entries s i) (fun x => val N t (x :: v))).
Proof.
  intros W Ht Hd. destruct (wf_pack s W) as [E G]. destruct (mmult_sp_t_raw N jd junk (scols s) (rows_of s) t ds G Ht Hd) as (p & H1 & H2 & H3 & H4).
  rewrite <- E, rows_of_len in *. exists p. do 3 (split; [assumption|]). intros i v Hi Hv. apply (H4 i (row_entries s i)); auto. apply rows_of_nth; auto.
Qed.
