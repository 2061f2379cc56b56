From Verif Require Import Base Spec L_Lin M_Tensor L_Tensor M_Fold S_Fold.

Section WLoop.
Context {A : Type}.

Lemma wloop n (g : nat -> nat) (f : nat -> A) (out : list A) (body : nat -> list A -> outcome (list A)) :
  (forall q, q < n -> g q < length out) ->
  (forall q1 q2, q1 < n -> q2 < n -> g q1 = g q2 -> q1 = q2) ->
  (forall q o, q < n -> length o = length out -> body q o = wr o (g q) (f q)) ->
  exists out', for_ n body out = Ok out' /\ length out' = length out /\
    (forall q, q < n -> nth_error out' (g q) = Some (f q)) /\
    (forall p, (forall q, q < n -> g q <> p) -> nth_error out' p = nth_error out p).
Proof.
  induction n as [|n IH]; intros Hb Hi Hbody.
  - exists out. repeat split; auto. lia.
  - destruct IH as (o & E & Hl & Ho & Hf); try (intros; first [apply Hb|apply Hi|apply Hbody|idtac]; auto; lia).
    rewrite for_S, E. cbn [bind]. rewrite Hbody by (auto; lia).
    rewrite wr_ok by (rewrite Hl; apply Hb; lia).
    eexists; split; [reflexivity|]. split; [rewrite length_upd; auto|]. split.
    + intros q Hq. destruct (Nat.eq_dec q n) as [->|Hne].
      * rewrite nth_error_upd_eq; auto. rewrite Hl; apply Hb; lia.
      * rewrite nth_error_upd_ne; [apply Ho; lia|]. intros E'. apply Hi in E'; lia.
    + intros p Hp. rewrite nth_error_upd_ne; [apply Hf; intros; apply Hp; lia|].
      intros ->. apply (Hp n); auto.
Qed.

Lemma wloop_perm (ds ds' : list nat) (pi : list nat -> list nat) (f : list nat -> A) (out : list A) body :
  length out = prod ds' ->
  (forall ix, valid ds ix -> valid ds' (pi ix)) ->
  (forall ix1 ix2, valid ds ix1 -> valid ds ix2 -> pi ix1 = pi ix2 -> ix1 = ix2) ->
  (forall ix o, valid ds ix -> length o = length out -> body (lin ds ix) o = wr o (lin ds' (pi ix)) (f ix)) ->
  exists out', for_ (prod ds) body out = Ok out' /\ length out' = length out /\
    forall ix, valid ds ix -> nth_error out' (lin ds' (pi ix)) = Some (f ix).
Proof.
  intros Ho Hv Hi Hb.
  destruct (wloop (prod ds) (fun q => lin ds' (pi (unlin ds q))) (fun q => f (unlin ds q)) out body) as (out' & E & Hl & H & _).
  - intros q Hq. rewrite Ho. apply lin_lt, Hv, unlin_valid, Hq.
  - intros q1 q2 H1 H2 E. apply lin_inj in E; try (apply Hv, unlin_valid; auto).
    apply Hi in E; try (apply unlin_valid; auto).
    rewrite <- (lin_unlin ds q1), <- (lin_unlin ds q2) by auto. congruence.
  - intros q o Hq Hlo. rewrite <- Hb by (auto; apply unlin_valid; auto). rewrite lin_unlin; auto.
  - exists out'. split; [auto|]. split; [auto|]. intros ix Hix.
    specialize (H (lin ds ix) ltac:(apply lin_lt; auto)). rewrite unlin_lin in H; auto.
Qed.

(* for (i = 0; i < size; i++) c[i] = h(c[i]) *)
Lemma map_loop (h : A -> A) (c : list A) :
  for_ (length c) (fun i c => x <- rd c i ;; wr c i (h x)) c = Ok (map h c).
Proof.
  destruct (for_inv (fun n o => length o = length c /\
      forall i, nth_error o i = if i <? n then option_map h (nth_error c i) else nth_error c i)
    (length c) (fun i c => x <- rd c i ;; wr c i (h x)) c) as (o & E & Hl & Ho).
  - split; [auto|]. intros i. reflexivity.
  - intros n o Hn (Hl & Ho).
    destruct (nth_error_lt c n Hn) as [v Hv].
    rewrite (rd_ok _ _ v) by (rewrite Ho, Nat.ltb_irrefl; auto). cbn [bind].
    rewrite wr_ok by lia. eexists; split; [reflexivity|]. split; [rewrite length_upd; auto|].
    intros i. destruct (Nat.eq_dec i n) as [->|Hne].
    + rewrite nth_error_upd_eq by lia. replace (n <? S n) with true by lia. rewrite Hv. reflexivity.
    + rewrite nth_error_upd_ne, Ho by auto. replace (i <? S n) with (i <? n) by lia. reflexivity.
  - rewrite E. f_equal. apply list_eq_nth_len; [rewrite map_length; auto|].
    intros i Hi. rewrite Ho, nth_error_map. replace (i <? length c) with true by lia. reflexivity.
Qed.
End WLoop.

Section Sum.
Context {A : Type} (N : numops A).

Lemma sum_ext n (f g : nat -> A) : (forall i, i < n -> f i = g i) -> sum_n N n f = sum_n N n g.
Proof.
  induction n as [|n IH]; intros H; simpl; [reflexivity|].
  rewrite IH, H by (auto; intros; apply H; lia). reflexivity.
Qed.

Lemma conj_0 : numlaws N -> nconj N (nzero N) = nzero N.
Proof.
  intros L.
  assert (H : forall y, nadd N (nconj N (nzero N)) y = y).
  { intros y. rewrite <- (conj_conj _ L y) at 1. rewrite <- (conj_add _ L), (add_0_l _ L).
    apply (conj_conj _ L). }
  rewrite <- (H (nzero N)) at 2. rewrite (add_comm _ L), (add_0_l _ L). reflexivity.
Qed.

(* the laws of conjugation alone *)
Record conjlaws : Prop := {
  cj_0 : nconj N (nzero N) = nzero N;
  cj_add : forall x y, nconj N (nadd N x y) = nadd N (nconj N x) (nconj N y);
  cj_mul : forall x y, nconj N (nmul N x y) = nmul N (nconj N x) (nconj N y);
  cj_cj : forall x, nconj N (nconj N x) = x
}.
Lemma numlaws_conj : numlaws N -> conjlaws.
Proof. intros L. split; [apply conj_0, L|apply (conj_add _ L)|apply (conj_mul _ L)|apply (conj_conj _ L)]. Qed.
Lemma conj_sum' n f : conjlaws -> nconj N (sum_n N n f) = sum_n N n (fun i => nconj N (f i)).
Proof.
  intros L. induction n as [|n IH]; simpl; [apply cj_0; auto|].
  rewrite (cj_add L), IH. reflexivity.
Qed.
Lemma conj_sum n f : numlaws N -> nconj N (sum_n N n f) = sum_n N n (fun i => nconj N (f i)).
Proof. intros L. apply conj_sum', numlaws_conj, L. Qed.

(* contents at a storage position *)
Definition dat (l : list A) (q : nat) : A := match nth_error l q with Some v => v | None => nzero N end.

Lemma rd_dat l q : q < length l -> rd l q = Ok (dat l q).
Proof. intros H. destruct (nth_error_lt l q H) as [v Hv]. unfold dat. rewrite (rd_ok _ _ _ Hv), Hv. reflexivity. Qed.

Lemma dot_ok k (f : nat -> A) (body : nat -> A -> outcome A) :
  (forall p s, p < k -> body p s = Ok (nadd N s (f p))) ->
  for_ k body (nzero N) = Ok (sum_n N k f).
Proof.
  induction k as [|k IH]; intros H; [reflexivity|].
  rewrite for_S, IH by (intros; apply H; lia). cbn [bind sum_n]. apply H; lia.
Qed.
End Sum.

Ltac inv_valid :=
  repeat match goal with
  | H : valid (_ :: _) _ |- _ => apply valid_cons_inv in H as (? & ? & -> & ? & H)
  | H : valid [] _ |- _ => apply valid_nil in H; subst
  end.

Section Core.
Context {A : Type} (N : numops A).
Notation dat := (dat N).

Definition term (la lb : list A) (ca cb : A -> A) (I L K i j k m x : nat) : A :=
  nmul N (ca (dat la (i + I * (x + L * j)))) (cb (dat lb (k + K * (x + L * m)))).

Lemma rd_pos3 (la : list A) I L J i x j :
  length la = I * L * J -> i < I -> x < L -> j < J ->
  rd la (i + I * (x + L * j)) = Ok (dat la (i + I * (x + L * j))).
Proof.
  intros Hl Hi Hx Hj. apply rd_dat. rewrite Hl, <- Nat.mul_assoc. apply mix_lt; auto. apply mix_lt; auto.
Qed.

Ltac modsimp := rewrite ?lin_cons, ?lin_nil, ?Nat.mul_0_r, ?Nat.add_0_r, ?Nat.add_0_l;
  repeat first [rewrite mix_mod by auto | rewrite mix_div by auto].

(* output: c(i,j,k,m); general path *)
Lemma general_ok (la lb out : list A) (op2 : blas_op) I J K L M :
  op2 = OpT \/ op2 = OpC ->
  length la = I * L * J -> length lb = K * L * M -> length out = I * J * K * M ->
  exists c, for_ M (fun m => for_ J (fun j =>
      gemm N OpN op2 I K L (fun _ => rd la) (I * L * j) I (fun _ => rd lb) (K * L * m) K
           (I * (j + J * K * m)) (I * J))) out = Ok c /\ length c = length out /\
    forall i j k m, i < I -> j < J -> k < K -> m < M ->
      nth_error c (i + I * (j + J * (k + K * m))) =
      Some (sum_n N L (term la lb (fun x => x) (blas_val N op2) I L K i j k m)).
Proof.
  intros Hop Ha Hb Hc. unfold gemm. rewrite !for_nest.
  destruct (wloop_perm [I;K;J;M] [I;J;K;M] (fun ix => match ix with [i;k;j;m] => [i;j;k;m] | _ => [] end)
    (fun ix => match ix with [i;k;j;m] => sum_n N L (term la lb (fun x => x) (blas_val N op2) I L K i j k m) | _ => nzero N end)
    out (fun q (c : list A) =>
     s <-
     for_ L
       (fun (p : nat) (s : A) =>
        x <-
        rd la
          (I * L * ((q / I / K) mod J) + blas_pos OpN I (q mod I) p);;
        y <-
        rd lb
          (K * L * (q / I / K / J) +
           blas_pos op2 K p ((q / I) mod K));;
        Ok (nadd N s (nmul N (blas_val N OpN x) (blas_val N op2 y))))
       (nzero N);;
     wr c
       (I * ((q / I / K) mod J + J * K * (q / I / K / J)) +
        (q mod I + I * J * ((q / I) mod K))) s)) as (c & E & Hl & H).
  - unfold prod; simpl; lia.
  - intros ix Hv. inv_valid. repeat constructor; auto.
  - intros ix1 ix2 H1 H2 E. inv_valid. congruence.
  - intros ix o Hv Hlo. inv_valid. modsimp.
    rewrite (dot_ok N L (term la lb (fun x => x) (blas_val N op2) I L K x x0 x1 x2)).
    + cbn [bind]. f_equal. ring.
    + intros p s Hp. unfold term, blas_pos.
      replace (I * L * x0 + (x + I * p)) with (x + I * (p + L * x0)) by ring.
      rewrite (rd_pos3 la I L J) by auto. cbn [bind].
      replace (K * L * x2 + match op2 with OpN => p + K * x1 | _ => x1 + K * p end) with (x1 + K * (p + L * x2))
        by (destruct Hop; subst op2; ring).
      rewrite (rd_pos3 lb K L M) by auto. reflexivity.
  - replace (M * J * K * I) with (prod [I;K;J;M]) by (unfold prod; simpl; lia).
    exists c. split; [exact E|]. split; [auto|].
    intros i j k m Hi Hj Hk Hm.
    specialize (H [i;k;j;m] ltac:(repeat constructor; auto)). cbn beta iota in H.
    rewrite !lin_cons, !lin_nil, !Nat.mul_0_r, !Nat.add_0_r in H. exact H.
Qed.

(* a single gemm: C(r,s) = sum_x A'(r,x) B'(x,s) with C contiguous *)
Lemma gemm_one (la lb out : list A) op1 op2 R S L lda ldb (fa fb : nat -> nat -> A) :
  length out = R * S ->
  (forall r x, r < R -> x < L -> rd la (blas_pos op1 lda r x) = Ok (fa r x)) ->
  (forall x s, x < L -> s < S -> rd lb (blas_pos op2 ldb x s) = Ok (fb x s)) ->
  exists c, gemm N op1 op2 R S L (fun _ => rd la) 0 lda (fun _ => rd lb) 0 ldb 0 R out = Ok c /\
    length c = length out /\
    forall r s, r < R -> s < S ->
      nth_error c (r + R * s) = Some (sum_n N L (fun x => nmul N (blas_val N op1 (fa r x)) (blas_val N op2 (fb x s)))).
Proof.
  intros Hc Ha Hb. unfold gemm. rewrite !for_nest.
  destruct (wloop_perm [R;S] [R;S] (fun ix => ix)
    (fun ix => match ix with [r;s] => sum_n N L (fun x => nmul N (blas_val N op1 (fa r x)) (blas_val N op2 (fb x s))) | _ => nzero N end)
    out (fun q (c : list A) =>
     s <-
     for_ L
       (fun (p : nat) (s : A) =>
        x <- rd la (0 + blas_pos op1 lda (q mod R) p);;
        y <- rd lb (0 + blas_pos op2 ldb p (q / R));;
        Ok (nadd N s (nmul N (blas_val N op1 x) (blas_val N op2 y))))
       (nzero N);;
     wr c (0 + (q mod R + R * (q / R))) s)) as (c & E & Hl & H); auto.
  - unfold prod; simpl; lia.
  - intros ix o Hv Hlo. inv_valid. modsimp.
    rewrite (dot_ok N L (fun p => nmul N (blas_val N op1 (fa x p)) (blas_val N op2 (fb p x1)))).
    + reflexivity.
    + intros p s Hp. rewrite !Nat.add_0_l, Ha, Hb by auto. reflexivity.
  - replace (S * R) with (prod [R;S]) by (unfold prod; simpl; lia).
    exists c. split; [exact E|]. split; [auto|].
    intros r s Hr Hs.
    specialize (H [r;s] ltac:(repeat constructor; auto)). cbn beta iota in H.
    rewrite !lin_cons, !lin_nil, !Nat.mul_0_r, !Nat.add_0_r in H. exact H.
Qed.

(* what the selection of paths computes *)
Definition cj (do_conj : bool) (x : A) : A := if do_conj then nconj N x else x.

Lemma cj_blas (do_conj : bool) x : blas_val N (if do_conj then OpC else OpT) x = cj do_conj x.
Proof. destruct do_conj; reflexivity. Qed.

Lemma paths_ok (do_conj : bool) (la lb out : list A) I J K L M :
  (do_conj = true -> conjlaws N) ->
  length la = I * L * J -> length lb = K * L * M -> length out = I * J * K * M ->
  exists c, fold_paths N do_conj (fun _ => rd la) (fun _ => rd lb) I J K L M out = Ok c /\
    length c = I * J * K * M /\
    forall i j k m, i < I -> j < J -> k < K -> m < M ->
      nth_error c (i + I * (j + J * (k + K * m))) =
      Some (sum_n N L (term la lb (cj do_conj) (fun x => x) I L K i j k m)).
Proof.
  intros HL Ha Hb Hc. unfold fold_paths, fold_paths_with.
  assert (Hgen : exists c, (c <- for_ M (fun m => for_ J (fun j =>
           gemm N OpN (if do_conj then OpC else OpT) I K L (fun _ => rd la) (I * L * j) I (fun _ => rd lb) (K * L * m) K
                (I * (j + J * K * m)) (I * J))) out ;;
    if do_conj then
      for_ (length c) (fun i c => x <- rd c i ;; wr c i (nconj N x)) c
    else Ok c) = Ok c /\ length c = I * J * K * M /\
    forall i j k m, i < I -> j < J -> k < K -> m < M ->
      nth_error c (i + I * (j + J * (k + K * m))) =
      Some (sum_n N L (term la lb (cj do_conj) (fun x => x) I L K i j k m))).
  { destruct (general_ok la lb out (if do_conj then OpC else OpT) I J K L M) as (c & E & Hl & H);
      try (destruct do_conj; auto; fail).
    rewrite E. cbn [bind]. destruct do_conj.
    - specialize (HL eq_refl). rewrite map_loop. eexists; split; [reflexivity|].
      rewrite map_length. split; [lia|]. intros i j k m Hi Hj Hk Hm.
      rewrite nth_error_map, H by auto. cbn [option_map]. f_equal.
      rewrite conj_sum' by auto. apply sum_ext. intros x Hx. unfold term, cj, blas_val.
      rewrite (cj_mul _ HL), (cj_cj _ HL). reflexivity.
    - exists c. split; [reflexivity|]. split; [lia|]. exact H. }
  destruct (Nat.eq_dec I 1) as [EI|NI].
  - subst I. rewrite Nat.eqb_refl. destruct (Nat.eq_dec K 1) as [EK|NK].
    + subst K. rewrite Nat.eqb_refl.
      destruct (gemm_one la lb out (if do_conj then OpC else OpT) OpN J M L L L
        (fun j x => dat la (0 + 1 * (x + L * j))) (fun x m => dat lb (0 + 1 * (x + L * m)))) as (c & E & Hl & H).
      * lia.
      * intros r x Hr Hx. replace (blas_pos (if do_conj then OpC else OpT) L r x) with (0 + 1 * (x + L * r)) by (destruct do_conj; unfold blas_pos; ring).
        apply (rd_pos3 la 1 L J); auto.
      * intros x s Hx Hs. replace (blas_pos OpN L x s) with (0 + 1 * (x + L * s)) by (unfold blas_pos; ring).
        apply (rd_pos3 lb 1 L M); auto.
      * exists c. split; [exact E|]. split; [lia|]. intros i j k m Hi Hj Hk Hm.
        assert (i = 0) by lia; assert (k = 0) by lia; subst i k.
        replace (0 + 1 * (j + J * (0 + 1 * m))) with (j + J * m) by ring. rewrite H by auto.
        f_equal. apply sum_ext. intros x Hx. unfold term. rewrite cj_blas. reflexivity.
    + replace (K =? 1) with false by lia. destruct (Nat.eq_dec M 1) as [EM|NM].
      * subst M. rewrite Nat.eqb_refl.
        destruct (gemm_one la lb out (if do_conj then OpC else OpT) OpT J K L L K
          (fun j x => dat la (0 + 1 * (x + L * j))) (fun x k => dat lb (k + K * (x + L * 0)))) as (c & E & Hl & H).
        -- lia.
        -- intros r x Hr Hx. replace (blas_pos (if do_conj then OpC else OpT) L r x) with (0 + 1 * (x + L * r)) by (destruct do_conj; unfold blas_pos; ring).
           apply (rd_pos3 la 1 L J); auto.
        -- intros x s Hx Hs. replace (blas_pos OpT K x s) with (s + K * (x + L * 0)) by (unfold blas_pos; ring).
           apply (rd_pos3 lb K L 1); auto.
        -- exists c. split; [exact E|]. split; [lia|]. intros i j k m Hi Hj Hk Hm.
           assert (i = 0) by lia; assert (m = 0) by lia; subst i m.
           replace (0 + 1 * (j + J * (k + K * 0))) with (j + J * k) by ring. rewrite H by auto.
           f_equal. apply sum_ext. intros x Hx. unfold term. rewrite cj_blas. reflexivity.
      * replace (M =? 1) with false by lia. exact Hgen.
  - replace (I =? 1) with false by lia.
    destruct ((J =? 1) && negb do_conj) eqn:EJ; [|exact Hgen].
    apply andb_prop in EJ as (EJ & EC). apply Nat.eqb_eq in EJ. subst J. destruct do_conj; [discriminate|].
    destruct (Nat.eq_dec K 1) as [EK|NK].
    + subst K. rewrite Nat.eqb_refl.
      destruct (gemm_one la lb out OpN OpN I M L I L
        (fun i x => dat la (i + I * (x + L * 0))) (fun x m => dat lb (0 + 1 * (x + L * m)))) as (c & E & Hl & H).
      * lia.
      * intros r x Hr Hx. replace (blas_pos OpN I r x) with (r + I * (x + L * 0)) by (unfold blas_pos; ring).
        apply (rd_pos3 la I L 1); auto.
      * intros x s Hx Hs. replace (blas_pos OpN L x s) with (0 + 1 * (x + L * s)) by (unfold blas_pos; ring).
        apply (rd_pos3 lb 1 L M); auto.
      * exists c. split; [exact E|]. split; [lia|]. intros i j k m Hi Hj Hk Hm.
        assert (j = 0) by lia; assert (k = 0) by lia; subst j k.
        replace (i + I * (0 + 1 * (0 + 1 * m))) with (i + I * m) by ring. rewrite H by auto. reflexivity.
    + replace (K =? 1) with false by lia. destruct (Nat.eq_dec M 1) as [EM|NM].
      * subst M. rewrite Nat.eqb_refl.
        destruct (gemm_one la lb out OpN OpT I K L I K
          (fun i x => dat la (i + I * (x + L * 0))) (fun x k => dat lb (k + K * (x + L * 0)))) as (c & E & Hl & H).
        -- lia.
        -- intros r x Hr Hx. replace (blas_pos OpN I r x) with (r + I * (x + L * 0)) by (unfold blas_pos; ring).
           apply (rd_pos3 la I L 1); auto.
        -- intros x s Hx Hs. replace (blas_pos OpT K x s) with (s + K * (x + L * 0)) by (unfold blas_pos; ring).
           apply (rd_pos3 lb K L 1); auto.
        -- exists c. split; [exact E|]. split; [lia|]. intros i j k m Hi Hj Hk Hm.
           assert (j = 0) by lia; assert (m = 0) by lia; subst j m.
           replace (i + I * (0 + 1 * (k + K * 0))) with (i + I * k) by ring. rewrite H by auto. reflexivity.
      * replace (M =? 1) with false by lia. exact Hgen.
Qed.

(* foldin: c(k,i,j,m) *)
Lemma foldin_paths_ok (la lb out : list A) I J K L M :
  length la = I * L * J -> length lb = K * L * M -> length out = K * I * J * M ->
  exists c, for_ M (fun m => for_ J (fun j =>
      gemm N OpN OpT K I L (fun _ => rd lb) (K * L * m) K (fun _ => rd la) (I * L * j) I
           (K * I * (j + J * m)) K)) out = Ok c /\ length c = length out /\
    forall i j k m, i < I -> j < J -> k < K -> m < M ->
      nth_error c (k + K * (i + I * (j + J * m))) =
      Some (sum_n N L (fun x => nmul N (dat lb (k + K * (x + L * m))) (dat la (i + I * (x + L * j))))).
Proof.
  intros Ha Hb Hc. unfold gemm. rewrite !for_nest.
  destruct (wloop_perm [K;I;J;M] [K;I;J;M] (fun ix => ix)
    (fun ix => match ix with [k;i;j;m] => sum_n N L (fun x => nmul N (dat lb (k + K * (x + L * m))) (dat la (i + I * (x + L * j)))) | _ => nzero N end)
    out (fun q (c : list A) =>
     s <-
     for_ L
       (fun (p : nat) (s : A) =>
        x <-
        rd lb
          (K * L * (q / K / I / J) + blas_pos OpN K (q mod K) p);;
        y <-
        rd la
          (I * L * ((q / K / I) mod J) +
           blas_pos OpT I p ((q / K) mod I));;
        Ok (nadd N s (nmul N (blas_val N OpN x) (blas_val N OpT y))))
       (nzero N);;
     wr c
       (K * I * ((q / K / I) mod J + J * (q / K / I / J)) +
        (q mod K + K * ((q / K) mod I))) s)) as (c & E & Hl & H); auto.
  - unfold prod; simpl; lia.
  - intros ix o Hv Hlo. destruct ix as [|k [|i [|j [|m [|]]]]]; try (apply valid_length in Hv; discriminate).
    apply valid_cons in Hv as [H1 Hv]. apply valid_cons in Hv as [H2 Hv]. apply valid_cons in Hv as [H3 Hv]. apply valid_cons in Hv as [H4 Hv].
    modsimp.
    rewrite (dot_ok N L (fun x => nmul N (dat lb (k + K * (x + L * m))) (dat la (i + I * (x + L * j))))).
    + cbn [bind]. f_equal. ring.
    + intros p s Hp. unfold blas_pos.
      replace (I * L * j + (i + I * p)) with (i + I * (p + L * j)) by ring.
      rewrite (rd_pos3 la I L J) by auto.
      replace (K * L * m + (k + K * p)) with (k + K * (p + L * m)) by ring.
      rewrite (rd_pos3 lb K L M) by auto. reflexivity.
  - replace (M * J * I * K) with (prod [K;I;J;M]) by (unfold prod; simpl; lia).
    exists c. split; [exact E|]. split; [auto|].
    intros i j k m Hi Hj Hk Hm.
    specialize (H [k;i;j;m] ltac:(repeat constructor; auto)). cbn beta iota in H.
    rewrite !lin_cons, !lin_nil, !Nat.mul_0_r, !Nat.add_0_r in H. exact H.
Qed.

End Core.

Section Dims.
Context {A : Type}.

Lemma dimension_ok (a : tensor A) p d s n : dims a = p ++ d :: s -> n = length p -> dimension a (Z.of_nat n) = Ok d.
Proof.
  intros E ->. unfold dimension. rewrite E, app_length. cbn [length].
  replace (Z.of_nat (length p) <? Z.of_nat (length p + S (length s)))%Z with true by lia.
  replace (0 <=? Z.of_nat (length p))%Z with true by lia. cbn [assert_ bind].
  apply rd_ok. rewrite Nat2Z.id, nth_error_app2, Nat.sub_diag by lia. reflexivity.
Qed.

Lemma take_dims_ok (a : tensor A) p mid s lo hi pre tail r :
  dims a = p ++ mid ++ s -> lo = length p -> hi = length p + length mid -> r = length pre ->
  length mid <= length tail ->
  take_dims a lo hi (pre ++ tail, r) =
  Ok ((pre ++ mid ++ skipn (length mid) tail, length pre + length mid), prod mid).
Proof.
  intros E -> -> -> Ht. unfold take_dims.
  replace (length p + length mid - length p) with (length mid) by lia.
  enough (H : forall n, n <= length mid ->
    for_ n (fun k (s : (list nat * nat) * nat) =>
      let (st, len) := s in
      di <- dimension a (Z.of_nat (length p + k)) ;; st' <- put di st ;; Ok (st', len * di)) ((pre ++ tail, length pre), 1)
    = Ok ((pre ++ firstn n mid ++ skipn n tail, length pre + n), prod (firstn n mid))).
  { rewrite H by auto. rewrite firstn_all. reflexivity. }
  induction n as [|n IH]; intros Hn.
  - rewrite for_0. simpl. rewrite Nat.add_0_r. reflexivity.
  - rewrite for_S, IH by lia. cbn [bind].
    destruct (nth_error_lt mid n ltac:(lia)) as [d Hd].
    apply nth_error_split in Hd as (m1 & m2 & E1 & E2).
    rewrite (dimension_ok a (p ++ m1) d (m2 ++ s)).
    2:{ rewrite E, E1, <- !app_assoc. reflexivity. }
    2:{ rewrite app_length. lia. }
    cbn [bind]. unfold put.
    assert (Ef : firstn n mid = m1).
    { rewrite E1, <- E2, firstn_app, firstn_all, Nat.sub_diag, firstn_O, app_nil_r. reflexivity. }
    assert (Ef' : firstn (S n) mid = m1 ++ [d]).
    { rewrite E1, <- E2. replace (m1 ++ d :: m2) with ((m1 ++ [d]) ++ m2) by (rewrite <- app_assoc; reflexivity).
      rewrite firstn_app. replace (S (length m1)) with (length (m1 ++ [d])) by (rewrite app_length; simpl; lia).
      rewrite firstn_all, Nat.sub_diag, firstn_O, app_nil_r. reflexivity. }
    rewrite Ef, Ef'.
    destruct (skipn n tail) as [|y rest] eqn:Es.
    { assert (length (skipn n tail) = 0) by (rewrite Es; reflexivity). rewrite skipn_length in H. lia. }
    rewrite (skipn_S_eq _ _ _ _ Es).
    rewrite wr_ok by (rewrite !app_length; simpl; lia). cbn [bind].
    rewrite app_assoc. replace (length pre + n) with (length (pre ++ m1)) by (rewrite app_length; lia).
    rewrite upd_app_mid. rewrite prod_app, prod_cons. f_equal. f_equal; [f_equal|].
    + rewrite <- !app_assoc. reflexivity.
    + rewrite app_length. lia.
    + replace (prod []) with 1 by reflexivity. lia.
Qed.

Lemma take_dims_ok0 (a : tensor A) mid s hi tail :
  dims a = mid ++ s -> hi = length mid -> length mid <= length tail ->
  take_dims a 0 hi (tail, 0) = Ok ((mid ++ skipn (length mid) tail, length mid), prod mid).
Proof. intros E -> Ht. exact (take_dims_ok a [] mid s 0 (length mid) [] tail 0 E eq_refl eq_refl eq_refl Ht). Qed.

End Dims.

Lemma not_coord_normalize d i : (forall p, ~ coord d i p) -> normalize_index i d = Abort.
Proof.
  intros H. destruct (normalize_cases i d) as [(q & Hq & E)|(_ & E)]; [|auto].
  exfalso; exact (H q Hq).
Qed.

Section Main.
Context {A : Type} (N : numops A).

Lemma val_dat (a : tensor A) p l s u x v :
  dims a = p ++ l :: s -> valid p u -> x < l -> valid s v ->
  val N a (u ++ x :: v) = dat N (data a) (lin p u + prod p * (x + l * lin s v)).
Proof.
  intros E Hu Hx Hv. unfold val, dat.
  assert (Hval : valid (dims a) (u ++ x :: v)).
  { rewrite E. apply valid_app; [apply valid_length; auto|]. split; auto. apply valid_cons; auto. }
  rewrite (elt_valid a _ Hval), E, lin_app, lin_cons by (apply valid_length; auto). reflexivity.
Qed.

Lemma wf_len3 (a : tensor A) p l s : wf a -> dims a = p ++ l :: s -> length (data a) = prod p * l * prod s.
Proof.
  intros Hw E. rewrite Hw, E, nelem_prod by (destruct p; discriminate). rewrite prod_app, prod_cons. ring.
Qed.

Lemma scalar_lin D X : valid D X -> lin (scalar_dims D) (scalar_ix X) = lin D X.
Proof. destruct 1; reflexivity. Qed.

Lemma scalar_valid D X : valid D X -> valid (scalar_dims D) (scalar_ix X).
Proof. destruct 1; repeat constructor; auto. Qed.

Lemma scalar_prod D : prod (scalar_dims D) = prod D.
Proof. destruct D; reflexivity. Qed.

Lemma scalar_nelem D : nelem (scalar_dims D) = prod D.
Proof. destruct D; reflexivity. Qed.

Lemma lin_lt' D X : valid D X -> lin D X < prod D.
Proof. apply lin_lt. Qed.

Lemma new_tensor_len (junk : nat -> A) D : length (data (new_tensor junk D)) = nelem D.
Proof. unfold new_tensor; simpl. rewrite length_alloc. apply total_size_nelem. Qed.

(* the prologue of do_fold: the output dimensions *)
Lemma finish_dims jd D n : n = Nat.max (length D) 1 ->
  unit_if_scalar (D ++ skipn (length D) (alloc jd n), length D) = Ok (scalar_dims D).
Proof.
  intros ->. unfold unit_if_scalar. destruct D as [|d D].
  - reflexivity.
  - cbn [length Nat.eqb]. rewrite skipn_all2 by (rewrite length_alloc; lia). rewrite app_nil_r. reflexivity.
Qed.

Lemma skipn_add {B} n m (l : list B) : skipn n (skipn m l) = skipn (m + n) l.
Proof. revert l; induction m as [|m IH]; intros l; simpl; [reflexivity|]. destruct l; [destruct n; reflexivity|apply IH]. Qed.

Lemma do_fold_with_gen gm do_conj jd junk (a b : tensor A) i1 i2 p1 l1 s1 p2 l2 s2 :
  dims a = p1 ++ l1 :: s1 -> dims b = p2 ++ l2 :: s2 ->
  coord (length (dims a)) i1 (length p1) -> coord (length (dims b)) i2 (length p2) ->
  do_fold_with N gm do_conj false false jd junk a i1 b i2 =
  if l1 =? 0 then Abort else if negb (l1 =? l2) then Abort else
  let D := scalar_dims (p1 ++ s1 ++ p2 ++ s2) in
  let output := new_tensor junk D in
  if length (data output) =? 0 then Ok output else
  c <- fold_paths_with N gm do_conj (fun _ => rd (data a)) (fun _ => rd (data b)) (prod p1) (prod s1) (prod p2) l1 (prod s2) (data output) ;;
  Ok (mkT D c).
Proof.
  intros Ea Eb H1 H2. unfold do_fold_with.
  rewrite (normalize_ok _ _ _ H1), (normalize_ok _ _ _ H2). cbn [bind].
  set (n := Nat.max _ 1).
  assert (Hn : n = Nat.max (length (p1 ++ s1 ++ p2 ++ s2)) 1).
  { unfold n. rewrite Ea, Eb, !app_length. cbn [length]. f_equal. lia. }
  assert (Hle : length p1 + length s1 + length p2 + length s2 <= n) by (rewrite Hn, !app_length; lia).
  rewrite (take_dims_ok0 a p1 (l1 :: s1)); auto; [|rewrite length_alloc; lia].
  cbn [bind]. rewrite (dimension_ok a p1 l1 s1) by auto. cbn [bind].
  destruct (Nat.eq_dec l1 0) as [E0|N0]; [subst l1; reflexivity|]. replace (l1 =? 0) with false by lia.
  rewrite (take_dims_ok a (p1 ++ [l1]) s1 []); auto.
  2:{ rewrite Ea, app_nil_r, <- app_assoc. reflexivity. }
  2:{ rewrite app_length; simpl; lia. }
  2:{ rewrite Ea, !app_length; simpl; lia. }
  2:{ rewrite skipn_length, length_alloc. lia. }
  cbn [bind]. rewrite skipn_add.
  rewrite app_assoc.
  rewrite (take_dims_ok b [] p2 (l2 :: s2)); auto.
  2:{ rewrite app_length; simpl; lia. }
  2:{ rewrite skipn_length, length_alloc. lia. }
  cbn [bind]. rewrite (dimension_ok b p2 l2 s2) by auto. cbn [bind].
  destruct (Nat.eq_dec l1 l2) as [E|Ne].
  2:{ replace (l1 =? l2) with false by lia. reflexivity. }
  subst l2. rewrite Nat.eqb_refl. cbn [negb].
  rewrite skipn_add, app_assoc.
  rewrite (take_dims_ok b (p2 ++ [l1]) s2 []); auto.
  2:{ rewrite Eb, app_nil_r, <- app_assoc. reflexivity. }
  2:{ rewrite app_length; simpl; lia. }
  2:{ rewrite Eb, !app_length; simpl; lia. }
  2:{ rewrite !app_length; lia. }
  2:{ rewrite skipn_length, length_alloc. lia. }
  cbn [bind]. rewrite skipn_add.
  replace (((p1 ++ s1) ++ p2) ++ s2 ++ skipn (length p1 + length s1 + length p2 + length s2) (alloc jd n), length ((p1 ++ s1) ++ p2) + length s2)
    with ((p1 ++ s1 ++ p2 ++ s2) ++ skipn (length (p1 ++ s1 ++ p2 ++ s2)) (alloc jd n), length (p1 ++ s1 ++ p2 ++ s2)).
  2:{ rewrite <- !app_assoc, !app_length. f_equal; [|lia]. do 4 f_equal. f_equal. lia. }
  rewrite finish_dims by auto. reflexivity.
Qed.
Lemma do_fold_gen do_conj jd junk (a b : tensor A) i1 i2 p1 l1 s1 p2 l2 s2 :
  dims a = p1 ++ l1 :: s1 -> dims b = p2 ++ l2 :: s2 ->
  coord (length (dims a)) i1 (length p1) -> coord (length (dims b)) i2 (length p2) ->
  do_fold N do_conj false false jd junk a i1 b i2 =
  if l1 =? 0 then Abort else if negb (l1 =? l2) then Abort else
  let D := scalar_dims (p1 ++ s1 ++ p2 ++ s2) in
  let output := new_tensor junk D in
  if length (data output) =? 0 then Ok output else
  c <- fold_paths N do_conj (fun _ => rd (data a)) (fun _ => rd (data b)) (prod p1) (prod s1) (prod p2) l1 (prod s2) (data output) ;;
  Ok (mkT D c).
Proof. apply (do_fold_with_gen (gemm N)). Qed.

Lemma do_fold_ok' do_conj jd junk (a b : tensor A) i1 i2 p1 l s1 p2 s2 :
  (do_conj = true -> conjlaws N) -> wf a -> wf b ->
  dims a = p1 ++ l :: s1 -> dims b = p2 ++ l :: s2 ->
  coord (length (dims a)) i1 (length p1) -> coord (length (dims b)) i2 (length p2) -> 0 < l ->
  exists c, do_fold N do_conj false false jd junk a i1 b i2 = Ok c /\ wf c /\
    dims c = scalar_dims (p1 ++ s1 ++ p2 ++ s2) /\
    forall u1 v1 u2 v2, valid p1 u1 -> valid s1 v1 -> valid p2 u2 -> valid s2 v2 ->
      elt c (scalar_ix (u1 ++ v1 ++ u2 ++ v2)) =
      Some (sum_n N l (fun x => nmul N (cj N do_conj (val N a (u1 ++ x :: v1))) (val N b (u2 ++ x :: v2)))).
Proof.
  intros HL Ha Hb Ea Eb H1 H2 Hl.
  rewrite (do_fold_gen do_conj jd junk a b i1 i2 p1 l s1 p2 l s2) by auto.
  replace (l =? 0) with false by lia. rewrite Nat.eqb_refl. cbn [negb].
  set (D := p1 ++ s1 ++ p2 ++ s2). cbv zeta.
  rewrite new_tensor_len, scalar_nelem.
  assert (HD : prod D = prod p1 * prod s1 * prod p2 * prod s2) by (unfold D; rewrite !prod_app; ring).
  destruct (Nat.eq_dec (prod D) 0) as [Ez|Nz].
  - rewrite Ez, Nat.eqb_refl. eexists; split; [reflexivity|]. split; [apply new_tensor_wf|]. split; [reflexivity|].
    intros u1 v1 u2 v2 Hu1 Hv1 Hu2 Hv2. exfalso.
    apply lin_lt in Hu1, Hv1, Hu2, Hv2.
    assert (prod p1 * prod s1 * prod p2 * prod s2 <> 0) by (repeat (apply Nat.neq_mul_0; split); lia). lia.
  - replace (prod D =? 0) with false by lia.
    destruct (paths_ok N do_conj (data a) (data b) (data (new_tensor junk (scalar_dims D)))
       (prod p1) (prod s1) (prod p2) l (prod s2)) as (c & E & Hlc & H); auto.
    + apply wf_len3; auto.
    + apply wf_len3; auto.
    + rewrite new_tensor_len, scalar_nelem; auto.
    + rewrite E. cbn [bind]. eexists; split; [reflexivity|]. split.
      { unfold wf; simpl. rewrite Hlc, scalar_nelem; auto. }
      split; [reflexivity|]. intros u1 v1 u2 v2 Hu1 Hv1 Hu2 Hv2.
      assert (HX : valid D (u1 ++ v1 ++ u2 ++ v2)).
      { unfold D. repeat (apply valid_app; [apply valid_length; auto|split; auto]). }
      rewrite elt_valid by (apply scalar_valid; auto). cbn [dims data].
      rewrite scalar_lin by auto. unfold D. rewrite !lin_app by (apply valid_length; auto).
      rewrite H by (apply lin_lt; auto). f_equal. apply sum_ext. intros x Hx. unfold term.
      rewrite (val_dat a p1 l s1), (val_dat b p2 l s2) by auto. reflexivity.
Qed.

Lemma do_fold_ok do_conj jd junk (a b : tensor A) i1 i2 p1 l s1 p2 s2 :
  (do_conj = true -> numlaws N) -> wf a -> wf b ->
  dims a = p1 ++ l :: s1 -> dims b = p2 ++ l :: s2 ->
  coord (length (dims a)) i1 (length p1) -> coord (length (dims b)) i2 (length p2) -> 0 < l ->
  exists c, do_fold N do_conj false false jd junk a i1 b i2 = Ok c /\ wf c /\
    dims c = scalar_dims (p1 ++ s1 ++ p2 ++ s2) /\
    forall u1 v1 u2 v2, valid p1 u1 -> valid s1 v1 -> valid p2 u2 -> valid s2 v2 ->
      elt c (scalar_ix (u1 ++ v1 ++ u2 ++ v2)) =
      Some (sum_n N l (fun x => nmul N (cj N do_conj (val N a (u1 ++ x :: v1))) (val N b (u2 ++ x :: v2)))).
Proof. intros HL. apply do_fold_ok'. intros E. apply numlaws_conj, HL, E. Qed.

Lemma do_fold_reject do_conj jd junk (a b : tensor A) i1 i2 p1 l1 s1 p2 l2 s2 :
  dims a = p1 ++ l1 :: s1 -> dims b = p2 ++ l2 :: s2 ->
  coord (length (dims a)) i1 (length p1) -> coord (length (dims b)) i2 (length p2) ->
  l1 <> l2 \/ l1 = 0 ->
  do_fold N do_conj false false jd junk a i1 b i2 = Abort.
Proof.
  intros Ea Eb H1 H2 H. rewrite (do_fold_gen do_conj jd junk a b i1 i2 p1 l1 s1 p2 l2 s2) by auto.
  destruct (Nat.eq_dec l1 0) as [E|Ne].
  - subst l1; reflexivity.
  - replace (l1 =? 0) with false by lia. replace (l1 =? l2) with false by lia. reflexivity.
Qed.

Lemma do_fold_reject_ix do_conj jd junk (a b : tensor A) i1 i2 :
  (forall p, ~ coord (length (dims a)) i1 p) \/ (forall p, ~ coord (length (dims b)) i2 p) ->
  do_fold N do_conj false false jd junk a i1 b i2 = Abort.
Proof.
  intros H. unfold do_fold, do_fold_with. destruct H as [H|H].
  - rewrite (not_coord_normalize _ _ H). reflexivity.
  - rewrite (not_coord_normalize _ _ H). destruct (normalize_cases i1 (length (dims a))) as [(p & _ & ->)|(_ & ->)]; reflexivity.
Qed.

(* foldc(A, B) = fold(conj A, B) *)
Lemma conj_val (a : tensor A) ix : wf a -> dims a <> [] -> valid (dims a) ix -> val N (tconj N a) ix = nconj N (val N a ix).
Proof.
  intros Hw Hd H. unfold val. destruct (elt_some a ix Hw Hd H) as [v Hv]. rewrite Hv.
  rewrite (elt_valid (tconj N a) ix) by exact H. cbn [tconj dims data].
  rewrite nth_error_map. rewrite <- (elt_valid a ix) by auto. rewrite Hv. reflexivity.
Qed.

Lemma tconj_wf (a : tensor A) : wf a -> wf (tconj N a).
Proof. unfold wf, tconj; simpl. rewrite map_length. auto. Qed.

Lemma split_dims (d : list nat) k : k < length d -> exists p l s, d = p ++ l :: s /\ k = length p.
Proof.
  intros H. destruct (nth_error_lt d k H) as [l Hl]. apply nth_error_split in Hl as (p & s & E & Hp). eauto 6.
Qed.

Lemma scalar_ix_inv D X : valid (scalar_dims D) X -> exists Y, valid D Y /\ X = scalar_ix Y.
Proof.
  destruct D as [|d D].
  - intros H. cbn [scalar_dims] in H. exists []. split; [constructor|]. inv_valid. simpl. f_equal. lia.
  - intros H. exists X. split; [exact H|]. inversion H; reflexivity.
Qed.

Lemma foldc_fold jd junk jd' junk' (a b : tensor A) i1 i2 : numlaws N -> wf a -> wf b ->
  foldc N jd junk a i1 b i2 = fold N jd' junk' (tconj N a) i1 b i2.
Proof.
  intros L Ha Hb. unfold foldc, fold.
  destruct (normalize_cases i1 (length (dims a))) as [(k1 & H1 & _)|(H1 & _)].
  2:{ rewrite !do_fold_reject_ix; auto. }
  destruct (normalize_cases i2 (length (dims b))) as [(k2 & H2 & _)|(H2 & _)].
  2:{ rewrite !do_fold_reject_ix; auto. }
  destruct (split_dims (dims a) k1 (proj1 H1)) as (p1 & l1 & s1 & Ea & Ek1).
  destruct (split_dims (dims b) k2 (proj1 H2)) as (p2 & l2 & s2 & Eb & Ek2). subst k1 k2.
  destruct (Nat.eq_dec l1 l2) as [E|Ne].
  2:{ rewrite !(do_fold_reject _ _ _ _ b i1 i2 p1 l1 s1 p2 l2 s2); auto. }
  subst l2. destruct (Nat.eq_dec l1 0) as [E0|N0].
  { rewrite !(do_fold_reject _ _ _ _ b i1 i2 p1 l1 s1 p2 l1 s2); auto. }
  destruct (do_fold_ok true jd junk a b i1 i2 p1 l1 s1 p2 s2) as (c & E & Hw & Hd & H); auto; try lia.
  destruct (do_fold_ok false jd' junk' (tconj N a) b i1 i2 p1 l1 s1 p2 s2) as (c' & E' & Hw' & Hd' & H'); auto; try lia.
  { apply tconj_wf; auto. }
  rewrite E, E'. f_equal. apply tensor_ext; auto. split; [congruence|].
  intros ix Hix. rewrite Hd in Hix. apply scalar_ix_inv in Hix as (Y & HY & ->).
  apply valid_app_inv in HY as (u1 & Y1 & -> & Hu1 & HY). apply valid_app_inv in HY as (v1 & Y2 & -> & Hv1 & HY).
  apply valid_app_inv in HY as (u2 & v2 & -> & Hu2 & Hv2).
  rewrite H, H' by auto. f_equal. apply sum_ext. intros x Hx. cbn [cj].
  rewrite conj_val; auto.
  - rewrite Ea; destruct p1; discriminate.
  - rewrite Ea. apply valid_app; [apply valid_length; auto|]. split; auto. apply valid_cons; auto.
Qed.

Lemma do_fold_junk do_conj jd junk jd' junk' (a b : tensor A) i1 i2 :
  (do_conj = true -> numlaws N) -> wf a -> wf b ->
  do_fold N do_conj false false jd junk a i1 b i2 = do_fold N do_conj false false jd' junk' a i1 b i2.
Proof.
  intros L Ha Hb.
  destruct (normalize_cases i1 (length (dims a))) as [(k1 & H1 & _)|(H1 & _)].
  2:{ rewrite !do_fold_reject_ix; auto. }
  destruct (normalize_cases i2 (length (dims b))) as [(k2 & H2 & _)|(H2 & _)].
  2:{ rewrite !do_fold_reject_ix; auto. }
  destruct (split_dims (dims a) k1 (proj1 H1)) as (p1 & l1 & s1 & Ea & Ek1).
  destruct (split_dims (dims b) k2 (proj1 H2)) as (p2 & l2 & s2 & Eb & Ek2). subst k1 k2.
  destruct (Nat.eq_dec l1 l2) as [E|Ne].
  2:{ rewrite !(do_fold_reject _ _ _ _ b i1 i2 p1 l1 s1 p2 l2 s2); auto. }
  subst l2. destruct (Nat.eq_dec l1 0) as [E0|N0].
  { rewrite !(do_fold_reject _ _ _ _ b i1 i2 p1 l1 s1 p2 l1 s2); auto. }
  destruct (do_fold_ok do_conj jd junk a b i1 i2 p1 l1 s1 p2 s2) as (c & E & Hw & Hd & H); auto; try lia.
  destruct (do_fold_ok do_conj jd' junk' a b i1 i2 p1 l1 s1 p2 s2) as (c' & E' & Hw' & Hd' & H'); auto; try lia.
  rewrite E, E'. f_equal. apply tensor_ext; auto. split; [congruence|].
  intros ix Hix. rewrite Hd in Hix. apply scalar_ix_inv in Hix as (Y & HY & ->).
  apply valid_app_inv in HY as (u1 & Y1 & -> & Hu1 & HY). apply valid_app_inv in HY as (v1 & Y2 & -> & Hv1 & HY).
  apply valid_app_inv in HY as (u2 & v2 & -> & Hu2 & Hv2).
  rewrite H, H' by auto. reflexivity.
Qed.

(* ---- foldin ---- *)

Lemma foldin_with_gen gm jd junk (a b : tensor A) i1 i2 p1 l1 s1 p2 l2 s2 :
  dims a = p1 ++ l1 :: s1 -> dims b = p2 ++ l2 :: s2 ->
  coord (length (dims a)) i1 (length p1) -> coord (length (dims b)) i2 (length p2) ->
  do_foldin_into_with gm false false jd junk a i1 b i2 =
  if negb (l2 =? l1) then Abort else
  let D := p2 ++ p1 ++ s1 ++ s2 in
  match D with [] => UB | _ =>
  let output := new_tensor junk D in
  if length (data output) =? 0 then Ok output else
  c <- for_ (prod s2) (fun m => for_ (prod s1) (fun j =>
         gm OpN OpT (prod p2) (prod p1) l2 (fun _ => rd (data b)) (prod p2 * l2 * m) (prod p2) (fun _ => rd (data a)) (prod p1 * l2 * j) (prod p1)
              (prod p2 * prod p1 * (j + prod s1 * m)) (prod p2))) (data output) ;;
  Ok (mkT D c)
  end.
Proof.
  intros Ea Eb H1 H2. unfold do_foldin_into_with.
  rewrite (normalize_ok _ _ _ H1), (normalize_ok _ _ _ H2). cbn [bind].
  set (n := _ - 2).
  assert (Hn : n = length (p2 ++ p1 ++ s1 ++ s2)).
  { unfold n. rewrite Ea, Eb, !app_length. cbn [length]. lia. }
  assert (Hle : length p1 + length s1 + length p2 + length s2 <= n) by (rewrite Hn, !app_length; lia).
  rewrite (take_dims_ok0 b p2 (l2 :: s2)); auto; [|rewrite length_alloc; lia].
  cbn [bind]. rewrite (dimension_ok b p2 l2 s2) by auto. cbn [bind].
  rewrite (take_dims_ok a [] p1 (l1 :: s1)); auto.
  2:{ rewrite skipn_length, length_alloc. lia. }
  cbn [bind]. rewrite (dimension_ok a p1 l1 s1) by auto. cbn [bind].
  destruct (Nat.eq_dec l2 l1) as [E|Ne].
  2:{ replace (l2 =? l1) with false by lia. reflexivity. }
  subst l2. rewrite Nat.eqb_refl. cbn [negb].
  rewrite skipn_add, app_assoc.
  rewrite (take_dims_ok a (p1 ++ [l1]) s1 []); auto.
  2:{ rewrite Ea, app_nil_r, <- app_assoc. reflexivity. }
  2:{ rewrite app_length; simpl; lia. }
  2:{ rewrite Ea, !app_length; simpl; lia. }
  2:{ rewrite !app_length; lia. }
  2:{ rewrite skipn_length, length_alloc. lia. }
  cbn [bind]. rewrite skipn_add, app_assoc.
  rewrite (take_dims_ok b (p2 ++ [l1]) s2 []); auto.
  2:{ rewrite Eb, app_nil_r, <- app_assoc. reflexivity. }
  2:{ rewrite app_length; simpl; lia. }
  2:{ rewrite Eb, !app_length; simpl; lia. }
  2:{ rewrite !app_length; lia. }
  2:{ rewrite skipn_length, length_alloc. lia. }
  cbn [bind]. rewrite skipn_add. rewrite skipn_all2 by (rewrite length_alloc, Hn, !app_length; lia).
  rewrite app_nil_r, <- !app_assoc.
  replace (length (p2 ++ p1 ++ s1) + length s2) with (length (p2 ++ p1 ++ s1 ++ s2)) by (rewrite !app_length; lia).
  destruct (p2 ++ p1 ++ s1 ++ s2); reflexivity.
Qed.
Lemma foldin_gen jd junk (a b : tensor A) i1 i2 p1 l1 s1 p2 l2 s2 :
  dims a = p1 ++ l1 :: s1 -> dims b = p2 ++ l2 :: s2 ->
  coord (length (dims a)) i1 (length p1) -> coord (length (dims b)) i2 (length p2) ->
  foldin N jd junk a i1 b i2 =
  if negb (l2 =? l1) then Abort else
  let D := p2 ++ p1 ++ s1 ++ s2 in
  match D with [] => UB | _ =>
  let output := new_tensor junk D in
  if length (data output) =? 0 then Ok output else
  c <- for_ (prod s2) (fun m => for_ (prod s1) (fun j =>
         gemm N OpN OpT (prod p2) (prod p1) l2 (fun _ => rd (data b)) (prod p2 * l2 * m) (prod p2) (fun _ => rd (data a)) (prod p1 * l2 * j) (prod p1)
              (prod p2 * prod p1 * (j + prod s1 * m)) (prod p2))) (data output) ;;
  Ok (mkT D c)
  end.
Proof. apply (foldin_with_gen (gemm N)). Qed.

Lemma foldin_ok' jd junk (a b : tensor A) i1 i2 p1 l s1 p2 s2 :
  wf a -> wf b ->
  dims a = p1 ++ l :: s1 -> dims b = p2 ++ l :: s2 ->
  coord (length (dims a)) i1 (length p1) -> coord (length (dims b)) i2 (length p2) ->
  p2 ++ p1 ++ s1 ++ s2 <> [] ->
  exists c, foldin N jd junk a i1 b i2 = Ok c /\ wf c /\
    dims c = p2 ++ (p1 ++ s1) ++ s2 /\
    forall u1 v1 u2 v2, valid p1 u1 -> valid s1 v1 -> valid p2 u2 -> valid s2 v2 ->
      elt c (u2 ++ (u1 ++ v1) ++ v2) =
      Some (sum_n N l (fun x => nmul N (val N b (u2 ++ x :: v2)) (val N a (u1 ++ x :: v1)))).
Proof.
  intros Ha Hb Ea Eb H1 H2 Hne.
  rewrite (foldin_gen jd junk a b i1 i2 p1 l s1 p2 l s2) by auto. rewrite Nat.eqb_refl. cbn [negb].
  remember (p2 ++ p1 ++ s1 ++ s2) as D eqn:ED. cbv zeta.
  assert (HD : prod D = prod p2 * prod p1 * prod s1 * prod s2) by (rewrite ED, !prod_app; ring).
  assert (EN : nelem D = prod D) by (apply nelem_prod; auto).
  assert (ED' : D = p2 ++ (p1 ++ s1) ++ s2) by (rewrite ED, <- !app_assoc; reflexivity).
  destruct D as [|d0 D0]; [congruence|]. remember (d0 :: D0) as D eqn:EDD. clear EDD d0 D0.
  rewrite new_tensor_len, EN.
  destruct (Nat.eq_dec (prod D) 0) as [Ez|Nz].
  - rewrite Ez, Nat.eqb_refl. eexists; split; [reflexivity|]. split; [apply new_tensor_wf|]. split; [exact ED'|].
    intros u1 v1 u2 v2 Hu1 Hv1 Hu2 Hv2. exfalso.
    apply lin_lt in Hu1, Hv1, Hu2, Hv2.
    assert (prod p2 * prod p1 * prod s1 * prod s2 <> 0) by (repeat (apply Nat.neq_mul_0; split); lia). lia.
  - replace (prod D =? 0) with false by lia.
    destruct (foldin_paths_ok N (data a) (data b) (data (new_tensor junk D))
       (prod p1) (prod s1) (prod p2) l (prod s2)) as (c & E & Hlc & H); auto.
    + apply wf_len3; auto.
    + apply wf_len3; auto.
    + rewrite new_tensor_len; lia.
    + rewrite E. cbn [bind]. eexists; split; [reflexivity|]. split.
      { unfold wf; simpl. rewrite Hlc, new_tensor_len; auto. }
      split; [exact ED'|]. intros u1 v1 u2 v2 Hu1 Hv1 Hu2 Hv2.
      rewrite <- (app_assoc u1).
      assert (HX : valid D (u2 ++ u1 ++ v1 ++ v2)).
      { rewrite ED. repeat (apply valid_app; [apply valid_length; auto|split; auto]). }
      rewrite elt_valid by auto. cbn [dims data].
      rewrite ED, !lin_app by (apply valid_length; auto).
      rewrite H by (apply lin_lt; auto). f_equal. apply sum_ext. intros x Hx.
      rewrite (val_dat a p1 l s1), (val_dat b p2 l s2) by auto. reflexivity.
Qed.
Lemma foldin_ok jd junk (a b : tensor A) i1 i2 p1 l s1 p2 s2 :
  numlaws N -> wf a -> wf b ->
  dims a = p1 ++ l :: s1 -> dims b = p2 ++ l :: s2 ->
  coord (length (dims a)) i1 (length p1) -> coord (length (dims b)) i2 (length p2) ->
  p2 ++ p1 ++ s1 ++ s2 <> [] ->
  exists c, foldin N jd junk a i1 b i2 = Ok c /\ wf c /\
    dims c = p2 ++ (p1 ++ s1) ++ s2 /\
    forall u1 v1 u2 v2, valid p1 u1 -> valid s1 v1 -> valid p2 u2 -> valid s2 v2 ->
      elt c (u2 ++ (u1 ++ v1) ++ v2) =
      Some (sum_n N l (fun x => nmul N (val N a (u1 ++ x :: v1)) (val N b (u2 ++ x :: v2)))).
Proof.
  intros L Ha Hb Ea Eb H1 H2 Hne. destruct (foldin_ok' jd junk a b i1 i2 p1 l s1 p2 s2) as (c & E & W & D & H); auto.
  exists c. split; [exact E|]. split; [exact W|]. split; [exact D|]. intros u1 v1 u2 v2 V1 V2 V3 V4. rewrite H by auto.
  f_equal. apply sum_ext. intros x Hx. apply (mul_comm _ L).
Qed.

Lemma foldin_reject jd junk (a b : tensor A) i1 i2 p1 l1 s1 p2 l2 s2 :
  dims a = p1 ++ l1 :: s1 -> dims b = p2 ++ l2 :: s2 ->
  coord (length (dims a)) i1 (length p1) -> coord (length (dims b)) i2 (length p2) ->
  l1 <> l2 -> foldin N jd junk a i1 b i2 = Abort.
Proof.
  intros Ea Eb H1 H2 H. rewrite (foldin_gen jd junk a b i1 i2 p1 l1 s1 p2 l2 s2) by auto.
  replace (l2 =? l1) with false by lia. reflexivity.
Qed.

Lemma foldin_vectors jd junk (a b : tensor A) l : wf a -> wf b -> dims a = [l] -> dims b = [l] ->
  foldin N jd junk a 0 b 0 = UB.
Proof.
  intros Ha Hb Ea Eb. rewrite (foldin_gen jd junk a b 0 0 [] l [] [] l []); auto.
  - rewrite Nat.eqb_refl. reflexivity.
  - rewrite Ea. split; simpl; auto.
  - rewrite Eb. split; simpl; auto.
Qed.
Lemma foldin_reject_ix jd junk (a b : tensor A) i1 i2 :
  (forall p, ~ coord (length (dims a)) i1 p) \/ (forall p, ~ coord (length (dims b)) i2 p) ->
  foldin N jd junk a i1 b i2 = Abort.
Proof.
  intros H. unfold foldin, do_foldin_into, do_foldin_into_with. destruct H as [H|H].
  - rewrite (not_coord_normalize _ _ H). reflexivity.
  - rewrite (not_coord_normalize _ _ H). destruct (normalize_cases i1 (length (dims a))) as [(p & _ & ->)|(_ & ->)]; reflexivity.
Qed.

(* uninitialised memory never shows *)
Lemma foldin_junk jd junk jd' junk' (a b : tensor A) i1 i2 : wf a -> wf b ->
  foldin N jd junk a i1 b i2 = foldin N jd' junk' a i1 b i2.
Proof.
  intros Ha Hb.
  destruct (normalize_cases i1 (length (dims a))) as [(k1 & H1 & _)|(H1 & _)].
  2:{ rewrite !foldin_reject_ix; auto. }
  destruct (normalize_cases i2 (length (dims b))) as [(k2 & H2 & _)|(H2 & _)].
  2:{ rewrite !foldin_reject_ix; auto. }
  destruct (split_dims (dims a) k1 (proj1 H1)) as (p1 & l1 & s1 & Ea & Ek1).
  destruct (split_dims (dims b) k2 (proj1 H2)) as (p2 & l2 & s2 & Eb & Ek2). subst k1 k2.
  rewrite !(foldin_gen _ _ a b i1 i2 p1 l1 s1 p2 l2 s2) by auto.
  destruct (Nat.eq_dec l2 l1) as [E|Ne].
  2:{ replace (l2 =? l1) with false by lia. reflexivity. }
  subst l2. rewrite Nat.eqb_refl. cbn [negb].
  remember (p2 ++ p1 ++ s1 ++ s2) as D eqn:ED. cbv zeta.
  destruct D as [|d0 D0]; [reflexivity|].
  assert (EN : nelem (d0 :: D0) = prod (d0 :: D0)) by reflexivity.
  remember (d0 :: D0) as D eqn:EDD. clear EDD d0 D0.
  assert (HD : prod D = prod p2 * prod p1 * prod s1 * prod s2) by (rewrite ED, !prod_app; ring).
  rewrite !new_tensor_len, EN.
  destruct (Nat.eq_dec (prod D) 0) as [Ez|Nz].
  - rewrite Ez, Nat.eqb_refl. unfold new_tensor. rewrite !total_size_nelem, EN, Ez. reflexivity.
  - replace (prod D =? 0) with false by lia.
    destruct (foldin_paths_ok N (data a) (data b) (data (new_tensor junk D))
       (prod p1) (prod s1) (prod p2) l1 (prod s2)) as (c & E & Hlc & H); try apply wf_len3; auto.
    { rewrite new_tensor_len; lia. }
    destruct (foldin_paths_ok N (data a) (data b) (data (new_tensor junk' D))
       (prod p1) (prod s1) (prod p2) l1 (prod s2)) as (c' & E' & Hlc' & H'); try apply wf_len3; auto.
    { rewrite new_tensor_len; lia. }
    rewrite E, E'. cbn [bind]. do 2 f_equal. rewrite new_tensor_len in Hlc, Hlc'.
    apply list_eq_nth_len; [congruence|]. intros q Hq.
    assert (Hq' : q < prod [prod p2; prod p1; prod s1; prod s2]) by (unfold prod at 1; simpl; lia).
    apply lin_surj in Hq' as (ix & Hv & <-). inv_valid.
    rewrite !lin_cons, lin_nil, Nat.mul_0_r, Nat.add_0_r. rewrite H, H' by auto. reflexivity.
Qed.

Lemma into_same jd junk jd' junk' (c a b : tensor A) m n : wf a -> wf b ->
  fold_into N jd junk c a m b n = fold N jd' junk' a m b n /\
  foldin_into N jd junk c a m b n = foldin N jd' junk' a m b n /\
  mmult_into N jd junk c a b = mmult N jd' junk' a b.
Proof.
  intros Ha Hb. split; [|split].
  - apply do_fold_junk; auto. discriminate.
  - apply foldin_junk; auto.
  - apply do_fold_junk; auto. discriminate.
Qed.

Lemma foldc_d_fold jd junk jd' junk' (a b : tensor A) m n :
  numlaws N -> (forall x, nconj N x = x) -> wf a -> wf b ->
  foldc_d N jd junk a m b n = fold N jd' junk' a m b n.
Proof. intros L Hc Ha Hb. apply do_fold_junk; auto. Qed.

End Main.

Lemma foldc_real {A B} (NB : numops B) (inj : A -> B) jd junk jd' junk' (a : tensor A) (b : tensor B) m n :
  numlaws NB -> (forall x, nconj NB (inj x) = inj x) -> wf a -> wf b ->
  foldc_dz NB inj jd junk a m b n = fold_dz NB inj jd' junk' a m b n /\
  foldc_dz NB inj jd junk a m b n = foldc NB jd' junk' (to_complex inj a) m b n.
Proof.
  intros L Hc Ha Hb.
  assert (Hw : wf (to_complex inj a)) by (unfold wf, to_complex; simpl; rewrite map_length; exact Ha).
  unfold foldc_dz, fold_dz. split.
  - apply do_fold_junk; auto.
  - rewrite (foldc_fold NB jd' junk' jd junk) by auto.
    replace (tconj NB (to_complex inj a)) with (to_complex inj a); auto.
    unfold tconj, to_complex. simpl. f_equal. rewrite map_map. apply map_ext. auto.
Qed.
