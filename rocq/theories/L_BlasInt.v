(* Lemmas for C103 *)
From Verif Require Import Base Spec S_Fold M_Tensor M_Fold M_Svd M_Solve M_BlasInt S_BlasInt L_Tensor L_Fold.
From Coq Require Import ZArith Lia List Bool.
Import ListNotations.
Local Open Scope nat_scope.

Lemma imax_pow bits : 1 <= bits -> (2 * (imax bits + 1) = 2 ^ Z.of_nat bits)%Z.
Proof.
  intros H. unfold imax. replace (Z.of_nat bits) with (Z.succ (Z.of_nat bits - 1)) at 2 by lia. rewrite Z.pow_succ_r by lia. lia.
Qed.
Lemma imax_pos bits : 1 <= bits -> (0 <= imax bits)%Z.
Proof. intros H. unfold imax. assert (0 < 2 ^ (Z.of_nat bits - 1))%Z by (apply Z.pow_pos_nonneg; lia). lia. Qed.

Lemma to_integer_id bits x : 1 <= bits -> (0 <= x <= imax bits)%Z -> to_integer bits x = x.
Proof.
  intros Hb H. pose proof (imax_pow bits Hb). unfold to_integer. rewrite Z.mod_small by lia.
  replace (x <=? imax bits)%Z with true by lia. reflexivity.
Qed.
Lemma to_integer_wrap bits x : 1 <= bits -> (0 <= x <= imax bits)%Z -> to_integer bits (2 ^ Z.of_nat bits + x) = x.
Proof.
  intros Hb H. pose proof (imax_pow bits Hb). unfold to_integer.
  rewrite Z.add_comm. replace (x + 2 ^ Z.of_nat bits)%Z with (x + 1 * 2 ^ Z.of_nat bits)%Z by lia. rewrite Z.mod_add by lia.
  rewrite Z.mod_small by lia. replace (x <=? imax bits)%Z with true by lia. reflexivity.
Qed.

Lemma le_mul x y : 0 < y -> x <= x * y.
Proof. intros. nia. Qed.
Lemma factors i l j : 0 < i -> 0 < l -> 0 < j -> i <= i * l * j /\ l <= i * l * j /\ j <= i * l * j /\ i * j <= i * l * j.
Proof.
  intros Hi Hl Hj. pose proof (le_mul i l Hl). pose proof (le_mul (i * l) j Hj). pose proof (le_mul l i Hi). pose proof (le_mul j (i * l) ltac:(nia)).
  pose proof (le_mul (i * j) l Hl). repeat split; lia.
Qed.

Section Gemm.
Context (bits : nat) (Hb : 1 <= bits).
Notation small x := (Z.of_nat x <= imax bits)%Z.

Lemma gemm_int_id {A} (g : @gemm_fun A) op1 op2 m n k ra oa lda rb ob ldb oc ldc c :
  small m -> small n -> small k -> small lda -> small ldb -> small ldc ->
  1 <= lda -> 1 <= ldb -> 1 <= ldc ->
  (match op1 with OpN => m | _ => k end) <= lda -> (match op2 with OpN => k | _ => n end) <= ldb -> m <= ldc ->
  gemm_int bits g op1 op2 m n k ra oa lda rb ob ldb oc ldc c = g op1 op2 m n k ra oa lda rb ob ldb oc ldc c.
Proof.
  intros Sm Sn Sk Sa Sb Sc Pa Pb Pc La Lb Lc. unfold gemm_int. cbv zeta.
  rewrite (to_integer_id bits (Z.of_nat m)), (to_integer_id bits (Z.of_nat n)), (to_integer_id bits (Z.of_nat k)),
    (to_integer_id bits (Z.of_nat lda)), (to_integer_id bits (Z.of_nat ldb)), (to_integer_id bits (Z.of_nat ldc)) by lia.
  replace ((0 <=? Z.of_nat m) && (0 <=? Z.of_nat n) && (0 <=? Z.of_nat k))%Z with true by lia. cbn [assert_ bind].
  replace (Z.max 1 (match op1 with OpN => Z.of_nat m | _ => Z.of_nat k end) <=? Z.of_nat lda)%Z with true by (destruct op1; lia). cbn [assert_ bind].
  replace (Z.max 1 (match op2 with OpN => Z.of_nat k | _ => Z.of_nat n end) <=? Z.of_nat ldb)%Z with true by (destruct op2; lia). cbn [assert_ bind].
  replace (Z.max 1 (Z.of_nat m) <=? Z.of_nat ldc)%Z with true by lia. cbn [assert_ bind].
  rewrite !Nat2Z.id. reflexivity.
Qed.

Lemma fold_paths_int {A} (N : numops A) (g : @gemm_fun A) cj ra rb i j k l m pC :
  0 < i -> 0 < j -> 0 < k -> 0 < l -> 0 < m -> small (i * l * j) -> small (k * l * m) ->
  fold_paths_with N (gemm_int bits g) cj ra rb i j k l m pC = fold_paths_with N g cj ra rb i j k l m pC.
Proof.
  intros Hi Hj Hk Hl Hm S1 S2.
  destruct (factors i l j Hi Hl Hj) as (F1 & F2 & F3 & F4). destruct (factors k l m Hk Hl Hm) as (F5 & F6 & F7 & F8).
  pose proof (le_mul i j Hj) as F9.
  unfold fold_paths_with. cbv zeta.
  rewrite (for_ext m _ (fun m => for_ j (fun j0 =>
      g OpN (if cj then OpC else OpT) i k l ra (i * l * j0) i rb (k * l * m) k (i * (j0 + j * k * m)) (i * j)))).
  2:{ intros m0 c Hm0. apply for_ext. intros j0 c0 Hj0. apply gemm_int_id; try lia. destruct cj; lia. }
  rewrite !gemm_int_id; try reflexivity; try lia; destruct cj; lia.
Qed.
End Gemm.

Lemma prod_app l1 l2 : prod (l1 ++ l2) = prod l1 * prod l2.
Proof. induction l1; simpl; [lia|]. rewrite IHl1. lia. Qed.

Section Fold.
Context (bits : nat) (Hb : 1 <= bits).
Notation small x := (Z.of_nat x <= imax bits)%Z.

Lemma alloc_nonempty {A} (junk : nat -> A) D : length (data (new_tensor junk D)) <> 0 -> 0 < nelem D.
Proof. unfold new_tensor. cbn [data]. rewrite length_alloc, total_size_nelem. lia. Qed.

Lemma fold_int_same {A} (N : numops A) (g : @gemm_fun A) cj jd junk (a b : tensor A) i1 i2 p1 l1 s1 p2 l2 s2 :
  dims a = p1 ++ l1 :: s1 -> dims b = p2 ++ l2 :: s2 ->
  coord (length (dims a)) i1 (length p1) -> coord (length (dims b)) i2 (length p2) ->
  small (prod (dims a)) -> small (prod (dims b)) ->
  fold_int bits N g cj jd junk a i1 b i2 = do_fold_with N g cj false false jd junk a i1 b i2.
Proof.
  intros Ea Eb C1 C2 Sa Sb. unfold fold_int.
  rewrite (do_fold_with_gen N (gemm_int bits g) cj jd junk a b i1 i2 p1 l1 s1 p2 l2 s2) by auto.
  rewrite (do_fold_with_gen N g cj jd junk a b i1 i2 p1 l1 s1 p2 l2 s2) by auto.
  destruct (Nat.eqb_spec l1 0) as [|Hl]; [reflexivity|]. destruct (Nat.eqb_spec l1 l2) as [->|]; [|reflexivity]. cbn [negb]. cbv zeta.
  destruct (Nat.eqb_spec (length (data (new_tensor junk (scalar_dims (p1 ++ s1 ++ p2 ++ s2))))) 0) as [|Hne]; [reflexivity|].
  apply alloc_nonempty in Hne.
  assert (Hp : 0 < prod (p1 ++ s1 ++ p2 ++ s2)).
  { unfold scalar_dims in Hne. destruct (p1 ++ s1 ++ p2 ++ s2); [simpl; lia|exact Hne]. }
  rewrite !prod_app in Hp. rewrite Ea, Eb, !prod_app in *. cbn [prod fold_right] in *. fold (prod s1) in *. fold (prod s2) in *.
  rewrite fold_paths_int; auto; try nia; try (rewrite <- Nat.mul_assoc; assumption).
Qed.

Lemma foldin_int_same {A} (g : @gemm_fun A) jd junk (a b : tensor A) i1 i2 p1 l1 s1 p2 l2 s2 :
  dims a = p1 ++ l1 :: s1 -> dims b = p2 ++ l2 :: s2 -> 0 < l1 ->
  coord (length (dims a)) i1 (length p1) -> coord (length (dims b)) i2 (length p2) ->
  small (prod (dims a)) -> small (prod (dims b)) ->
  foldin_int bits g jd junk a i1 b i2 = do_foldin_into_with g false false jd junk a i1 b i2.
Proof.
  intros Ea Eb Hl C1 C2 Sa Sb. unfold foldin_int.
  rewrite (foldin_with_gen (gemm_int bits g) jd junk a b i1 i2 p1 l1 s1 p2 l2 s2) by auto.
  rewrite (foldin_with_gen g jd junk a b i1 i2 p1 l1 s1 p2 l2 s2) by auto.
  destruct (Nat.eqb_spec l2 l1) as [->|]; [|reflexivity]. cbn [negb]. cbv zeta.
  destruct (p2 ++ p1 ++ s1 ++ s2) as [|d D] eqn:ED; [reflexivity|]. rewrite <- ED in *.
  destruct (Nat.eqb_spec (length (data (new_tensor junk (p2 ++ p1 ++ s1 ++ s2)))) 0) as [|Hne]; [reflexivity|].
  apply alloc_nonempty in Hne.
  assert (Hp : 0 < prod (p2 ++ p1 ++ s1 ++ s2)) by (rewrite ED in *; exact Hne).
  rewrite !prod_app in Hp. rewrite Ea, Eb, !prod_app in *. cbn [prod fold_right] in *. fold (prod s1) in *. fold (prod s2) in *.
  assert (P1 : 0 < prod p1) by nia. assert (P2 : 0 < prod p2) by nia. assert (P3 : 0 < prod s1) by nia. assert (P4 : 0 < prod s2) by nia.
  destruct (factors (prod p1) l1 (prod s1) P1 Hl P3) as (F1 & F2 & _). destruct (factors (prod p2) l1 (prod s2) P2 Hl P4) as (F5 & _).
  rewrite Nat.mul_assoc in Sa, Sb.
  f_equal. apply for_ext. intros m c Hm. apply for_ext. intros j c0 Hj. apply gemm_int_id; auto; lia.
Qed.
End Fold.

Lemma fit_ok bits x : (- imax bits - 1 <= x <= imax bits)%Z -> fit bits x = Ok x.
Proof. intros H. unfold fit. destruct (_ && _)%bool eqn:E; [reflexivity|lia]. Qed.
Lemma fit_over bits x : (imax bits < x)%Z -> fit bits x = UB.
Proof. intros H. unfold fit. destruct (_ && _)%bool eqn:E; [lia|reflexivity]. Qed.
Lemma fit_cases bits x : (0 <= x)%Z -> (0 <= imax bits)%Z -> fit bits x = UB /\ (imax bits < x)%Z \/ fit bits x = Ok x /\ (x <= imax bits)%Z.
Proof. intros H H'. destruct (Z.leb_spec x (imax bits)); [right|left]; (split; [|lia]); [apply fit_ok|apply fit_over]; lia. Qed.
Lemma new_array_ok x : (0 <= x)%Z -> new_array x = Ok x.
Proof. intros H. unfold new_array. destruct (Z.leb_spec 0 x); [reflexivity|lia]. Qed.

Lemma arpack_int_start bits rp n nev : 1 <= bits -> (0 < nev)%Z -> (nev < n)%Z -> (n <= imax bits)%Z ->
  arpack_int bits rp n nev =
  (nev2 <- fit bits (2 * nev)%Z ;;
  let ncv := Z.min (Z.max nev2 20) n in
  nv <- fit bits (n * ncv)%Z ;;
  V <- new_array nv ;;
  lworkl <- (if rp then ncv8 <- fit bits (ncv + 8)%Z ;; fit bits (ncv * ncv8)%Z
             else c3 <- fit bits (3 * ncv)%Z ;; c35 <- fit bits (c3 + 5)%Z ;; fit bits (ncv * c35)%Z) ;;
  lworkv <- fit bits (ncv * 3)%Z ;;
  n3 <- fit bits (n * 3)%Z ;;
  workd <- new_array n3 ;;
  workl <- new_array lworkl ;;
  workv <- new_array lworkv ;;
  rwork <- new_array ncv ;;
  Ok (mkSizes n nev ncv lworkl n V workd workl workv rwork)).
Proof.
  intros Hb H0 H1 Hn. unfold arpack_int. rewrite !to_integer_id by (auto; lia). rewrite fit_ok by lia. cbn [bind].
  replace ((nev =? 0) || (n - 1 <? nev))%Z with false by lia. cbn [negb assert_ bind]. rewrite new_array_ok by lia. reflexivity.
Qed.

Lemma basis_pos n k : (0 < k)%Z -> (k < n)%Z -> (1 <= Z.min (Z.max (2 * k) 20) n <= n)%Z.
Proof. lia. Qed.

Lemma arpack_int_value bits rp n nev : 5 <= bits -> (0 < nev)%Z -> (nev < n)%Z -> arpack_holds bits rp n nev ->
  arpack_int bits rp n nev = Ok (mkSizes n nev (basis n nev) (work rp (basis n nev)) n (n * basis n nev) (3 * n) (work rp (basis n nev)) (3 * basis n nev) (basis n nev)).
Proof.
  intros Hb H0 H1 (S1 & S2 & S3 & S4). unfold holds in *. fold (imax bits) in *.
  assert (P : (1 <= basis n nev <= n)%Z) by (apply basis_pos; auto).
  rewrite arpack_int_start by (auto; lia). rewrite fit_ok by lia. cbn [bind]. cbv zeta. fold (basis n nev). set (c := basis n nev) in *.
  assert (Q : (c <= n * c)%Z) by nia.
  rewrite fit_ok by lia. cbn [bind]. rewrite new_array_ok by lia. cbn [bind].
  assert (W : (if rp then ncv8 <- fit bits (c + 8)%Z ;; fit bits (c * ncv8)%Z
             else c3 <- fit bits (3 * c)%Z ;; c35 <- fit bits (c3 + 5)%Z ;; fit bits (c * c35)%Z) = Ok (work rp c)).
  { unfold work in *. destruct rp.
    - rewrite fit_ok by nia. cbn [bind]. rewrite fit_ok by nia. f_equal. lia.
    - rewrite fit_ok by nia. cbn [bind]. rewrite fit_ok by nia. cbn [bind]. rewrite fit_ok by nia. f_equal. lia. }
  rewrite W. cbn [bind].
  assert (0 <= work rp c)%Z by (unfold work; destruct rp; nia).
  rewrite fit_ok by lia. cbn [bind]. rewrite fit_ok by lia. cbn [bind]. rewrite !new_array_ok by lia. cbn [bind].
  f_equal. f_equal; lia.
Qed.

Lemma arpack_int_over bits rp n nev : 5 <= bits -> (0 < nev)%Z -> (nev < n)%Z -> holds bits n -> ~ arpack_holds bits rp n nev ->
  arpack_int bits rp n nev = UB.
Proof.
  intros Hb H0 H1 Hn Hh. unfold arpack_holds, holds in *. fold (imax bits) in *.
  assert (P : (1 <= basis n nev <= n)%Z) by (apply basis_pos; auto).
  rewrite arpack_int_start by (auto; lia).
  destruct (fit_cases bits (2 * nev)) as [(-> & _)|(-> & F1)]; [lia|lia|reflexivity|]. cbn [bind]. cbv zeta. fold (basis n nev). set (c := basis n nev) in *.
  assert (Q : (0 <= n * c)%Z) by nia.
  destruct (fit_cases bits (n * c)) as [(-> & _)|(-> & F2)]; [lia|lia|reflexivity|]. cbn [bind]. rewrite new_array_ok by lia. cbn [bind].
  assert (W : forall x, x = (if rp then ncv8 <- fit bits (c + 8)%Z ;; fit bits (c * ncv8)%Z
             else c3 <- fit bits (3 * c)%Z ;; c35 <- fit bits (c3 + 5)%Z ;; fit bits (c * c35)%Z) ->
             x = UB \/ exists w, x = Ok w /\ (work rp c <= imax bits)%Z).
  { intros x ->. unfold work. destruct rp.
    - destruct (fit_cases bits (c + 8)) as [(-> & _)|(-> & F3)]; [lia|lia|auto|]. cbn [bind].
      destruct (fit_cases bits (c * (c + 8))) as [(-> & _)|(-> & F4)]; [nia|lia|auto|]. right. eexists. split; [reflexivity|nia].
    - destruct (fit_cases bits (3 * c)) as [(-> & _)|(-> & F3)]; [lia|lia|auto|]. cbn [bind].
      destruct (fit_cases bits (3 * c + 5)) as [(-> & _)|(-> & F4)]; [lia|lia|auto|]. cbn [bind].
      destruct (fit_cases bits (c * (3 * c + 5))) as [(-> & _)|(-> & F5)]; [nia|lia|auto|]. right. eexists. split; [reflexivity|nia]. }
  destruct (W _ eq_refl) as [->|(w & -> & F3)]; [reflexivity|]. cbn [bind].
  destruct (fit_cases bits (c * 3)) as [(-> & _)|(-> & F4)]; [lia|lia|reflexivity|]. cbn [bind].
  destruct (fit_cases bits (n * 3)) as [(-> & _)|(-> & F5)]; [lia|lia|reflexivity|]. exfalso. apply Hh. repeat split; lia.
Qed.
