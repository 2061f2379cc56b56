(* The algebra of conjugate gradients. *)
From Verif Require Import Base Spec S_Fold S_Expm S_Cgs L_Lin L_Fold L_Kron L_Expm L_BlockSvd L_Fftw L_Solve.
From Coq Require Import Ring.
Local Open Scope nat_scope.

Section Alg.
Context {A : Type} (N : numops A) (K : fieldops A) (L : fieldlaws N K).
Let LN : numlaws N := f_num _ _ L.
Notation "x + y" := (nadd N x y). Notation "x * y" := (nmul N x y). Notation "x - y" := (fsub K x y). Notation "x / y" := (fdiv K x y).
Notation "0" := (nzero N). Notation "1" := (none_ N). Notation Sum := (sum_n N). Notation conj := (nconj N).
Add Ring fr : (fring N K L).

Lemma one_ne : 1 <> 0.
Proof. intros E. apply (f_char _ _ L 0). rewrite (f_nat_S _ _ L), (f_nat_0 _ _ L), E. ring. Qed.
Lemma conj0 : conj 0 = 0. Proof. apply (conj_0 N LN). Qed.
Lemma conj_sub x y : conj (x - y) = conj x - conj y.
Proof. apply (cancel_r N K L _ _ (conj y)). rewrite <- (conj_add N LN). rewrite (f_sub _ _ L). ring. Qed.
Lemma conj_ne x : x <> 0 -> conj x <> 0.
Proof. intros H E. apply H. rewrite <- (conj_conj N LN x), E. apply conj0. Qed.
Lemma conj_div x y : y <> 0 -> conj (x / y) = conj x / conj y.
Proof.
  intros H. symmetry. apply (div_unique N K L); [apply conj_ne; auto|]. rewrite <- (conj_mul N LN), (f_div _ _ L) by auto. reflexivity.
Qed.

(* ---- linear dependence ---- *)
Fixpoint comb (cs : list A) (vs : list (nat -> A)) (i : nat) : A :=
  match cs, vs with c :: cs, v :: vs => c * v i + comb cs vs i | _, _ => 0 end.
Lemma comb_app c1 c2 v1 v2 i : length c1 = length v1 -> comb (c1 ++ c2) (v1 ++ v2) i = comb c1 v1 i + comb c2 v2 i.
Proof.
  revert v1. induction c1 as [|c c1 IH]; intros [|v v1] H; try discriminate; cbn [List.app comb].
  - ring.
  - rewrite IH by (cbn in H; lia). ring.
Qed.
(* v - (v m / w m) w *)
Definition elim (w : nat -> A) (m : nat) (v : nat -> A) : nat -> A := fun i => v i - (v m / w m) * w i.
Fixpoint ratio (w : nat -> A) (m : nat) (cs : list A) (vs : list (nat -> A)) : A :=
  match cs, vs with c :: cs, v :: vs => c * (v m / w m) + ratio w m cs vs | _, _ => 0 end.
Lemma comb_elim w m cs vs i : comb cs (map (elim w m) vs) i = comb cs vs i - ratio w m cs vs * w i.
Proof.
  revert vs. induction cs as [|c cs IH]; intros [|v vs]; cbn [map comb ratio]; try ring. rewrite IH. unfold elim. ring.
Qed.
Lemma comb_zero cs vs i : Forall (fun v => v i = 0) vs -> comb cs vs i = 0.
Proof.
  intros H. revert cs. induction H as [|v vs E H IH]; intros [|c cs]; cbn [comb]; try ring. rewrite E, IH. ring.
Qed.
Lemma nn_case (P Q : Prop) : (Q -> ~ ~ P) -> (~ Q -> ~ ~ P) -> ~ ~ P.
Proof. tauto. Qed.
Lemma nn_forall {X} (P : X -> Prop) (l : list X) : ~ ~ (Forall P l \/ exists x, In x l /\ ~ P x).
Proof.
  induction l as [|x l IH]; [intros H; apply H; left; constructor|]. intros H. apply IH. intros [F|(y & Hy & HP)].
  - assert (~ ~ P x) by (intros HP; apply H; right; exists x; split; [left; auto|auto]). apply H0. intros HP. apply H. left. constructor; auto.
  - apply H. right. exists y. split; [right; auto|auto].
Qed.

Lemma dependent m : forall vs, (m < length vs)%nat ->
  ~ ~ exists cs, length cs = length vs /\ (exists c, In c cs /\ c <> 0) /\ forall i, (i < m)%nat -> comb cs vs i = 0.
Proof.
  induction m as [|m IH]; intros vs H.
  - intros F. apply F. destruct vs as [|v vs]; [cbn in H; lia|]. exists (1 :: map (fun _ => 0) vs). split; [cbn; rewrite map_length; auto|].
    split; [exists 1; split; [left; auto|apply one_ne]|]. intros i Hi. lia.
  - intros F. apply (nn_forall (fun v : nat -> A => v m = 0) vs). intros [Z|(w & Hw & Hm)].
    + apply (IH vs ltac:(lia)). intros (cs & Lc & Nz & Hc). apply F. exists cs. split; [auto|]. split; [auto|]. intros i Hi.
      destruct (Nat.eq_dec i m) as [->|]; [apply comb_zero; auto|apply Hc; lia].
    + apply in_split in Hw. destruct Hw as (l1 & l2 & ->). rewrite app_length in H. cbn [length] in H.
      apply (IH (map (elim w m) (l1 ++ l2))); [rewrite map_length, app_length; lia|]. intros (cs & Lc & Nz & Hc). rewrite map_length, app_length in Lc.
      set (c1 := firstn (length l1) cs). set (c2 := skipn (length l1) cs). assert (Ec : cs = c1 ++ c2) by (symmetry; apply firstn_skipn).
      assert (L1 : length c1 = length l1) by (unfold c1; rewrite firstn_length; lia).
      apply F. exists (c1 ++ (0 - ratio w m cs (l1 ++ l2)) :: c2). split; [|split].
      * rewrite !app_length. cbn [length]. assert (length c2 = length l2) by (unfold c2; rewrite skipn_length; lia). lia.
      * destruct Nz as (c & Hc0 & Hn). exists c. split; [|auto]. rewrite Ec in Hc0. apply in_app_or in Hc0. apply in_or_app. destruct Hc0; [left; auto|right; right; auto].
      * intros i Hi. rewrite comb_app by auto. cbn [comb].
        assert (E : comb cs (l1 ++ l2) i = comb c1 l1 i + comb c2 l2 i) by (rewrite Ec at 1; apply comb_app; auto).
        assert (C : comb cs (map (elim w m) (l1 ++ l2)) i = 0).
        { destruct (Nat.eq_dec i m) as [->|]; [|apply Hc; lia]. apply comb_zero. apply Forall_map. apply Forall_forall. intros v _. unfold elim. rewrite (f_div _ _ L) by auto. ring. }
        rewrite comb_elim, E in C. transitivity (comb c1 l1 i + comb c2 l2 i - ratio w m cs (l1 ++ l2) * w i); [ring|exact C].
Qed.

(* ---- scalar products ---- *)
Context (n : nat).
Notation dot := (dot N n). Notation app := (app N n).
Lemma dot_ext u u' v v' : (forall i, (i < n)%nat -> u i = u' i) -> (forall i, (i < n)%nat -> v i = v' i) -> dot u v = dot u' v'.
Proof. intros H1 H2. unfold S_Cgs.dot. apply sum_ext. intros i Hi. rewrite H1, H2 by auto. reflexivity. Qed.
Lemma dot_conj u v : conj (dot u v) = dot v u.
Proof. unfold S_Cgs.dot. rewrite (sum_conj N LN). apply sum_ext. intros i Hi. rewrite (conj_mul N LN), (conj_conj N LN). ring. Qed.
Lemma dot_lin_l c u d v w : dot (fun i => c * u i + d * v i) w = c * dot u w + d * dot v w.
Proof.
  unfold S_Cgs.dot. rewrite (sum_scal_l N LN), (sum_scal_l N LN), <- (sum_add N LN). apply sum_ext. intros i _. ring.
Qed.
Lemma dot_lin_r c u d v w : dot w (fun i => c * u i + d * v i) = conj c * dot w u + conj d * dot w v.
Proof. rewrite <- dot_conj, dot_lin_l, (conj_add N LN), !(conj_mul N LN), !dot_conj. reflexivity. Qed.
Lemma dot_zero_l v : dot (fun _ => 0) v = 0.
Proof. unfold S_Cgs.dot. apply (sum_0 N LN). intros. ring. Qed.

(* mutually orthogonal vectors are at most n *)
Lemma dot_comb cs vs w : dot (fun i => comb cs vs i) w = fold_right (fun cv s => fst cv * dot (snd cv) w + s) 0 (combine cs vs).
Proof.
  revert vs. induction cs as [|c cs IH]; intros vs; [apply dot_zero_l|]. destruct vs as [|v vs]; [apply dot_zero_l|].
  cbn [comb combine fold_right fst snd]. rewrite <- IH. transitivity (c * dot v w + 1 * dot (fun i => comb cs vs i) w); [|ring].
  rewrite <- (dot_lin_l c v 1 (fun i => comb cs vs i)). apply dot_ext; [|auto]. intros i Hi. ring.
Qed.
Lemma orthogonal_few (r : nat -> nat -> A) m : (forall i j, (i < m)%nat -> (j < m)%nat -> i <> j -> dot (r i) (r j) = 0) ->
  (forall i, (i < m)%nat -> dot (r i) (r i) <> 0) -> (m <= n)%nat.
Proof.
  intros O Z. destruct (le_lt_dec m n) as [|Hm]; [auto|]. exfalso.
  apply (dependent n (map r (seq 0 m))); [rewrite map_length, seq_length; auto|]. intros (cs & Lc & (c & Hc & Hn) & H). rewrite map_length, seq_length in Lc.
  apply In_nth_error in Hc. destruct Hc as [j Hj]. assert (Hjm : (j < m)%nat) by (rewrite <- Lc; apply (nth_error_lt_inv _ _ _ Hj)).
  assert (E : dot (fun i => comb cs (map r (seq 0 m)) i) (r j) = 0).
  { rewrite (dot_ext _ (fun _ => 0) _ (r j)); [apply dot_zero_l|exact H|auto]. }
  rewrite dot_comb in E.
  assert (S : forall q cs k, (q + length cs = m)%nat -> fold_right (fun cv s => fst cv * dot (snd cv) (r j) + s) 0 (combine cs (map r (seq q (length cs)))) =
     if (q <=? j)%nat then nth (j - q)%nat cs 0 * dot (r j) (r j) else k * 0).
  { intros q cs0. revert q. induction cs0 as [|c0 cs0 IH]; intros q k Hq; cbn [length seq map combine fold_right fst snd].
    - cbn [length] in Hq. destruct (Nat.leb_spec q j); [lia|ring].
    - cbn [length] in Hq. rewrite (IH (S q) k) by lia. destruct (Nat.eq_dec q j) as [->|Hne].
      + rewrite Nat.leb_refl, Nat.sub_diag. replace (S j <=? j)%nat with false by lia. cbn [nth]. ring.
      + rewrite O by lia. destruct (Nat.leb_spec (S q) j).
        * replace (q <=? j)%nat with true by lia. replace (j - q)%nat with (S (j - S q))%nat by lia. cbn [nth]. ring.
        * replace (q <=? j)%nat with false by lia. ring. }
  rewrite <- Lc, (S 0%nat cs 0 Lc) in E. cbn [Nat.leb] in E. rewrite Nat.sub_0_r, (nth_error_nth _ _ 0 Hj) in E.
  apply Hn. apply (mul_cancel N K L _ _ (dot (r j) (r j))); [apply Z; auto|]. rewrite E. ring.
Qed.

(* ---- the sequences ---- *)
Context (a : nat -> nat -> A) (b x0 : nat -> A).
Notation r := (cg_r N K n a b x0). Notation p := (cg_p N K n a b x0). Notation xs := (cg_x N K n a b x0).
Lemma app_lin c u d v i : app a (fun i => c * u i + d * v i) i = c * app a u i + d * app a v i.
Proof. unfold S_Cgs.app. rewrite (sum_scal_l N LN), (sum_scal_l N LN), <- (sum_add N LN). apply sum_ext. intros k _. ring. Qed.
Lemma app_ext u v i : (forall k, (k < n)%nat -> u k = v k) -> app a u i = app a v i.
Proof. intros H. unfold S_Cgs.app. apply sum_ext. intros k Hk. rewrite H by auto. reflexivity. Qed.
Definition rho k := dot (r k) (r k).
Definition qq k := dot (p k) (app a (p k)).
Definition al k := rho k / qq k.
Definition be k := rho (S k) / rho k.
Lemma p_0 : p 0%nat = r 0%nat. Proof. reflexivity. Qed.
Lemma x_S k i : xs (S k) i = xs k i + al k * p k i.
Proof. unfold cg_x, al, rho, qq, cg_r, cg_p, cg_x. cbn [cg]. destruct (cg N K n a b x0 k) as [x q]. reflexivity. Qed.
Lemma p_S k i : p (S k) i = r (S k) i + be k * p k i.
Proof. unfold be, rho, cg_r, cg_p, cg_x. cbn [cg]. destruct (cg N K n a b x0 k) as [x q]. reflexivity. Qed.
Lemma r_S k i : r (S k) i = r k i - al k * app a (p k) i.
Proof.
  unfold cg_r at 1, residual. rewrite (app_ext _ (fun j => 1 * xs k j + al k * p k j)) by (intros j _; rewrite x_S; ring).
  rewrite app_lin. unfold cg_r, residual. ring.
Qed.

Context (H : hermitian N n a) (Hdef : forall v, dot v (app a v) = 0 -> forall i, (i < n)%nat -> v i = 0).
Lemma herm u v : dot (app a u) v = dot u (app a v).
Proof.
  unfold S_Cgs.dot, S_Cgs.app. transitivity (Sum n (fun i => Sum n (fun k => a i k * u k * conj (v i)))).
  { apply sum_ext. intros i _. apply (sum_scal_r N LN). }
  rewrite (sum_swap_l N LN). apply sum_ext. intros k Hk. rewrite (sum_conj N LN), (sum_scal_l N LN). apply sum_ext. intros i Hi.
  rewrite (conj_mul N LN), (H k i) by auto. ring.
Qed.
Lemma rho_real k : conj (rho k) = rho k. Proof. apply dot_conj. Qed.
Lemma qq_real k : conj (qq k) = qq k. Proof. unfold qq. rewrite dot_conj. apply herm. Qed.

Definition orth m := forall i j, (i <= m)%nat -> (j <= m)%nat -> i <> j -> dot (r i) (r j) = 0.
Definition conjug m := forall i j, (i <= m)%nat -> (j <= m)%nat -> i <> j -> dot (p i) (app a (p j)) = 0.
Lemma dot_lin_l' u v c w : dot (fun i => u i + c * v i) w = dot u w + c * dot v w.
Proof. rewrite (dot_ext _ (fun i => 1 * u i + c * v i) w w) by (auto; intros; ring). rewrite dot_lin_l. ring. Qed.
Lemma dot_lin_r' u v c w : dot w (fun i => u i + c * v i) = dot w u + conj c * dot w v.
Proof. rewrite <- dot_conj, dot_lin_l', (conj_add N LN), (conj_mul N LN), !dot_conj. reflexivity. Qed.
Lemma rp m : orth m -> forall j i, (j < i)%nat -> (i <= m)%nat -> dot (r i) (p j) = 0.
Proof.
  intros O. induction j as [|j IH]; intros i Hi Hm.
  - rewrite p_0. apply O; lia.
  - rewrite (dot_ext _ (r i) _ (fun x => r (S j) x + be j * p j x)) by (auto; intros; apply p_S). rewrite dot_lin_r', IH, O by lia. ring.
Qed.
Lemma pr m k : orth m -> (k <= m)%nat -> dot (p k) (r k) = rho k.
Proof.
  intros O Hk. destruct k as [|k]; [rewrite p_0; reflexivity|].
  rewrite (dot_ext _ (fun x => r (S k) x + be k * p k x) _ (r (S k))) by (auto; intros; apply p_S). rewrite dot_lin_l'.
  rewrite <- (dot_conj (r (S k)) (p k)), (rp m O) by lia. rewrite conj0. unfold rho. ring.
Qed.
Lemma qq_ne m k : orth m -> (k <= m)%nat -> rho k <> 0 -> qq k <> 0.
Proof.
  intros O Hk Hr E. apply Hr. rewrite <- (pr m) by auto. rewrite (dot_ext _ (fun _ => 0) _ (r k)); [apply dot_zero_l| |auto]. apply Hdef. exact E.
Qed.
Lemma al_ne m k : orth m -> (k <= m)%nat -> rho k <> 0 -> al k <> 0.
Proof. intros O Hk Hr E. apply Hr. rewrite <- (f_div _ _ L (rho k) (qq k)) by (apply (qq_ne m); auto). unfold al in E. rewrite E. ring. Qed.
Lemma al_real m k : orth m -> (k <= m)%nat -> rho k <> 0 -> conj (al k) = al k.
Proof. intros O Hk Hr. unfold al. rewrite conj_div by (apply (qq_ne m); auto). rewrite rho_real, qq_real. reflexivity. Qed.
(* w against A p_k *)
Lemma app_p m k w : orth m -> (k <= m)%nat -> rho k <> 0 -> dot w (app a (p k)) * al k = dot w (r k) - dot w (r (S k)).
Proof.
  intros O Hk Hr. apply (cancel_r N K L _ _ (dot w (r (S k)))).
  rewrite <- (al_real m k) at 1 by auto. transitivity (dot w (fun i => r (S k) i + al k * app a (p k) i)).
  - rewrite dot_lin_r'. ring.
  - transitivity (dot w (r k)); [|ring]. apply dot_ext; [auto|]. intros i Hi. rewrite r_S. ring.
Qed.
Lemma step_orth m : orth m -> conjug m -> (forall k, (k <= m)%nat -> rho k <> 0) -> forall j, (j <= m)%nat -> dot (r (S m)) (r j) = 0.
Proof.
  intros O C Hr j Hj.
  rewrite (dot_ext _ (fun i => r m i + (0 - al m) * app a (p m) i) _ (r j)) by (auto; intros; rewrite r_S; ring). rewrite dot_lin_l', herm.
  assert (Ej : dot (p m) (app a (r j)) = if (j =? m)%nat then qq m else 0).
  { destruct j as [|j].
    - rewrite <- p_0. destruct (Nat.eqb_spec 0%nat m) as [<-|]; [reflexivity|apply C; lia].
    - transitivity (dot (p m) (fun i => app a (p (S j)) i + (0 - be j) * app a (p j) i)).
      + apply dot_ext; [auto|]. intros i Hi. rewrite (app_ext (p (S j)) (fun x => 1 * r (S j) x + be j * p j x)) by (intros; rewrite p_S; ring). rewrite app_lin. ring.
      + rewrite dot_lin_r'. rewrite (C m j) by lia. destruct (Nat.eqb_spec (S j) m) as [->|]; [unfold qq; ring|]. rewrite (C m (S j)) by lia. ring. }
  rewrite Ej. destruct (Nat.eqb_spec j m) as [->|].
  - change (dot (r m) (r m)) with (rho m). pose proof (f_div _ _ L (rho m) (qq m) (qq_ne m m O ltac:(lia) (Hr m ltac:(lia)))) as E. fold (al m) in E. rewrite <- E at 1. ring.
  - rewrite O by lia. ring.
Qed.
Lemma step_conj m : orth (S m) -> conjug m -> (forall k, (k <= m)%nat -> rho k <> 0) -> forall j, (j <= m)%nat -> dot (p (S m)) (app a (p j)) = 0.
Proof.
  intros O C Hr j Hj. pose proof (Hr j Hj) as Hrj. pose proof (Hr m ltac:(lia)) as Hrm.
  rewrite (dot_ext _ (fun i => r (S m) i + be m * p m i) _ (app a (p j))) by (auto; intros; apply p_S). rewrite dot_lin_l'.
  apply (mul_cancel N K L _ _ (al j)); [apply (al_ne (S m)); auto; lia|].
  transitivity (dot (r (S m)) (app a (p j)) * al j + be m * dot (p m) (app a (p j)) * al j); [ring|].
  rewrite (app_p (S m)) by (auto; lia). rewrite (O (S m) j) by lia. destruct (Nat.eq_dec j m) as [->|].
  - change (dot (r (S m)) (r (S m))) with (rho (S m)). change (dot (p m) (app a (p m))) with (qq m).
    transitivity (be m * (al m * qq m) - rho (S m)); [ring|]. unfold al. rewrite (f_div _ _ L) by (apply (qq_ne (S m)); auto). unfold be. rewrite (f_div _ _ L) by auto. ring.
  - rewrite (O (S m) (S j)), (C m j) by lia. ring.
Qed.
Lemma cg_inv m : (forall k, (k < m)%nat -> rho k <> 0) -> orth m /\ conjug m.
Proof.
  induction m as [|m IH]; intros Hr.
  - split; intros i j Hi Hj Hne; lia.
  - destruct IH as [O C]; [intros; apply Hr; lia|]. assert (Hr' : forall k, (k <= m)%nat -> rho k <> 0) by (intros; apply Hr; lia).
    assert (O' : orth (S m)).
    { intros i j Hi Hj Hne. destruct (Nat.eq_dec i (S m)) as [->|]; [apply step_orth; auto; lia|]. destruct (Nat.eq_dec j (S m)) as [->|]; [|apply O; lia].
      rewrite <- dot_conj, step_orth by (auto; lia). apply conj0. }
    split; [exact O'|].
    intros i j Hi Hj Hne. destruct (Nat.eq_dec i (S m)) as [->|]; [apply step_conj; auto; lia|]. destruct (Nat.eq_dec j (S m)) as [->|]; [|apply C; lia].
    rewrite <- herm, <- dot_conj, step_conj by (auto; lia). apply conj0.
Qed.
(* the residuals cannot all be nonzero *)
Lemma cg_finite : ~ (forall k, (k <= n)%nat -> rho k <> 0).
Proof.
  intros Hr. destruct (cg_inv n) as [O _]; [intros; apply Hr; lia|].
  assert (S n <= n)%nat; [|lia]. apply (orthogonal_few r (S n)).
  - intros i j Hi Hj. apply O; lia.
  - intros i Hi. apply Hr. lia.
Qed.
(* the squares of the directions are those of the residuals plus squares *)
Lemma pp k : (forall j, (j < S k)%nat -> rho j <> 0) -> dot (p (S k)) (p (S k)) = rho (S k) + dot (fun i => be k * p k i) (fun i => be k * p k i).
Proof.
  intros Hr. destruct (cg_inv (S k) Hr) as [O _].
  rewrite (dot_ext _ (fun i => r (S k) i + 1 * (be k * p k i)) _ (fun i => r (S k) i + 1 * (be k * p k i))) by (intros; rewrite p_S; ring).
  rewrite dot_lin_l', !dot_lin_r'. rewrite (conj_1 N LN).
  assert (E1 : dot (r (S k)) (fun i => be k * p k i) = 0).
  { rewrite (dot_ext _ (r (S k)) _ (fun i => 0 * 0 + be k * p k i)) by (auto; intros; ring).
    rewrite (dot_lin_r 0 (fun _ => 0)). rewrite (rp (S k) O k) by lia. rewrite conj0. ring. }
  assert (E2 : dot (fun i => be k * p k i) (r (S k)) = 0) by (rewrite <- dot_conj, E1; apply conj0).
  rewrite E1, E2. unfold rho. ring.
Qed.
End Alg.
