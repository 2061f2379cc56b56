From Verif Require Import Base Spec S_Trace L_Lin M_Tensor L_Tensor M_Arith M_Fold S_Fold L_Fold L_Arith L_Linspace M_Kron L_Kron M_Scale L_Scale.

Section Trace.
Context {A : Type} (N : numops A).
Notation dat := (dat N).

Definition tterm (D : list A) a1 a2 a3 a4 z l r := dat D (r mod a1 + a1 * (l + a2 * (r / a1 + a3 * (l + a4 * z)))).

Lemma trace_pos a1 a2 a3 a4 a5 r l z : a1 <> 0 -> r < a1 * a3 -> l < a2 -> l < a4 -> z < a5 ->
  r mod a1 + a1 * (l + a2 * (r / a1 + a3 * (l + a4 * z))) < a1 * a2 * a3 * a4 * a5.
Proof.
  intros H1 Hr Hl2 Hl4 Hz.
  replace (a1 * a2 * a3 * a4 * a5) with (a1 * (a2 * (a3 * (a4 * a5)))) by ring.
  apply mix_lt; [apply Nat.mod_upper_bound; auto|]. apply mix_lt; auto. apply mix_lt; [apply Nat.div_lt_upper_bound; auto|].
  apply mix_lt; auto.
Qed.

Lemma trace_loop_ok (D C0 : list A) a1 a2 a3 a4 a5 :
  length D = a1 * a2 * a3 * a4 * a5 -> length C0 = a1 * a3 * a5 -> (forall q, dat C0 q = nzero N) ->
  exists C, trace_loop N D a1 a2 a3 a4 a5 C0 = Ok C /\ length C = length C0 /\
    forall i k m, i < a1 -> k < a3 -> m < a5 ->
      dat C (i + a1 * (k + a3 * m)) = sum_n N (Nat.min a2 a4) (fun l => dat D (i + a1 * (l + a2 * (k + a3 * (l + a4 * m))))).
Proof.
  intros HD HC0 Hz.
  set (acc := fun (pc pd : nat) (C : list A) => c <- rd C pc ;; x <- rd D pd ;; wr C pc (nadd N c x)).
  set (W := a1 * a3).
  assert (E : trace_loop N D a1 a2 a3 a4 a5 C0 =
    for_ a5 (fun m => for_ (Nat.min a2 a4) (fun l => for_ (a3 * a1) (fun r =>
       acc (r mod a1 + a1 * (r / a1 + a3 * m)) (r mod a1 + a1 * (l + a2 * (r / a1 + a3 * (l + a4 * m))))))) C0).
  { unfold trace_loop. cbv zeta. fold acc.
    transitivity (for_ a5 (fun m => for_ (Nat.min a2 a4) (fun l => for_ a3 (fun k => for_ a1 (fun i =>
      acc (i + a1 * (k + a3 * m)) (i + a1 * (l + a2 * (k + a3 * (l + a4 * m)))))))) C0).
    - destruct (Nat.eq_dec a1 1) as [->|H1].
      + simpl Nat.eqb. cbv iota. apply for_ext; intros m C _. apply for_ext; intros l C' _. apply for_ext; intros k C'' _.
        rewrite for_S, for_0. cbn [bind]. rewrite !Nat.mul_1_l. reflexivity.
      + replace (a1 =? 1) with false by lia. reflexivity.
    - apply for_ext; intros m C _. apply for_ext; intros l C' _. rewrite for_nest. reflexivity. }
  rewrite E. clear E.
  destruct (for_inv (fun m (C : list A) => length C = length C0 /\
     forall z r, z < a5 -> r < W -> dat C (W * z + r) =
       if z <? m then sum_n N (Nat.min a2 a4) (fun l => tterm D a1 a2 a3 a4 z l r) else nzero N)
     a5 (fun m => for_ (Nat.min a2 a4) (fun l => for_ (a3 * a1) (fun r =>
       acc (r mod a1 + a1 * (r / a1 + a3 * m)) (r mod a1 + a1 * (l + a2 * (r / a1 + a3 * (l + a4 * m))))))) C0)
    as (C & EC & HlC & HC).
  - split; [auto|]. intros. rewrite Hz. reflexivity.
  - intros m C Hm (HlC & HC).
    destruct (for_inv (fun l (C' : list A) => length C' = length C0 /\
      forall z r, z < a5 -> r < W -> dat C' (W * z + r) =
        if z =? m then sum_n N l (fun l => tterm D a1 a2 a3 a4 z l r) else dat C (W * z + r))
      (Nat.min a2 a4) (fun l => for_ (a3 * a1) (fun r =>
       acc (r mod a1 + a1 * (r / a1 + a3 * m)) (r mod a1 + a1 * (l + a2 * (r / a1 + a3 * (l + a4 * m)))))) C)
      as (C' & EC' & HlC' & HC').
    + split; auto. intros z r Hz' Hr. destruct (Nat.eqb_spec z m) as [->|]; auto. rewrite HC by auto.
      replace (m <? m) with false by lia. reflexivity.
    + intros l C' Hl (HlC' & HC').
      destruct (blockloop N (fun r c => nadd N c (tterm D a1 a2 a3 a4 m l r)) (W * m) (a3 * a1) (length C0) C'
        (fun r => acc (r mod a1 + a1 * (r / a1 + a3 * m)) (r mod a1 + a1 * (l + a2 * (r / a1 + a3 * (l + a4 * m))))))
        as (C'' & E'' & Hl'' & H''); auto.
      * rewrite HC0. unfold W. nia.
      * intros r o Hr Ho. assert (Ha1 : a1 <> 0) by (intros ->; lia).
        assert (Ep : r mod a1 + a1 * (r / a1 + a3 * m) = W * m + r).
        { unfold W. rewrite (Nat.div_mod r a1 Ha1) at 3. ring. }
        rewrite Ep. unfold acc. rewrite (rd_dat N) by (rewrite Ho, HC0; unfold W; nia). cbn [bind].
        rewrite (rd_dat N) by (rewrite HD; apply trace_pos; auto; lia). reflexivity.
      * exists C''. split; [auto|]. split; [auto|]. intros z r Hz' Hr. rewrite H''.
        destruct (Nat.eq_dec z m) as [->|Hne].
        { replace ((W * m <=? W * m + r) && (W * m + r <? W * m + a3 * a1)) with true by (unfold W in *; lia).
          rewrite HC' by auto. rewrite Nat.eqb_refl. simpl sum_n. f_equal. f_equal. lia. }
        { replace ((W * m <=? W * z + r) && (W * z + r <? W * m + a3 * a1)) with false.
          - rewrite HC' by auto. replace (z =? m) with false by lia. reflexivity.
          - symmetry. apply andb_false_iff.
            destruct (Nat.lt_ge_cases z m).
            + left. apply Nat.leb_gt. assert (W * (z + 1) <= W * m) by (apply Nat.mul_le_mono_l; lia). lia.
            + right. apply Nat.ltb_ge. assert (W * (m + 1) <= W * z) by (apply Nat.mul_le_mono_l; lia). unfold W in *; lia. }
    + exists C'. split; [auto|]. split; [auto|]. intros z r Hz' Hr. rewrite HC' by auto.
      destruct (Nat.eq_dec z m) as [->|Hne].
      * rewrite Nat.eqb_refl. replace (m <? S m) with true by lia. reflexivity.
      * replace (z =? m) with false by lia. rewrite HC by auto. replace (z <? S m) with (z <? m) by lia. reflexivity.
  - exists C. split; [auto|]. split; [auto|]. intros i k m Hi Hk Hm.
    assert (Hr : i + a1 * k < W) by (apply mix_lt; auto).
    replace (i + a1 * (k + a3 * m)) with (W * m + (i + a1 * k)) by (unfold W; ring).
    rewrite HC by auto. replace (m <? a5) with true by lia. apply sum_ext. intros l Hl. unfold tterm.
    rewrite mix_mod, mix_div by auto. reflexivity.
Qed.

Lemma take3 (D : tensor A) p1 a2 p3 a4 p5 nd : dims D = p1 ++ a2 :: p3 ++ a4 :: p5 ->
  length p1 + length p3 + length p5 <= length nd ->
  forall (k : (list nat * nat) -> nat -> nat -> nat -> nat -> nat -> outcome (tensor A)),
  ('(st, b1) <- take_dims D 0 (length p1) (nd, 0) ;;
   b2 <- dimension D (Z.of_nat (length p1)) ;;
   '(st, b3) <- take_dims D (S (length p1)) (S (length p1) + length p3) st ;;
   b4 <- dimension D (Z.of_nat (S (length p1) + length p3)) ;;
   '(st, b5) <- take_dims D (S (S (length p1) + length p3)) (length (dims D)) st ;;
   k st b1 b2 b3 b4 b5) =
  k (p1 ++ p3 ++ p5 ++ skipn (length p1 + length p3 + length p5) nd, length p1 + length p3 + length p5) (prod p1) a2 (prod p3) a4 (prod p5).
Proof.
  intros E Hn k.
  rewrite (take_dims_ok0 D p1 (a2 :: p3 ++ a4 :: p5)); auto; [|lia].
  cbn [bind]. rewrite (dimension_ok D p1 a2 (p3 ++ a4 :: p5)) by auto. cbn [bind].
  rewrite (take_dims_ok D (p1 ++ [a2]) p3 (a4 :: p5)); auto.
  2:{ rewrite E, <- app_assoc. reflexivity. }
  2:{ rewrite app_length; simpl; lia. }
  2:{ rewrite app_length; simpl; lia. }
  2:{ rewrite skipn_length. lia. }
  cbn [bind]. rewrite skipn_add.
  rewrite (dimension_ok D (p1 ++ a2 :: p3) a4 p5).
  2:{ rewrite E, <- app_assoc. reflexivity. }
  2:{ rewrite app_length; simpl; lia. }
  cbn [bind]. rewrite app_assoc.
  rewrite (take_dims_ok D (p1 ++ a2 :: p3 ++ [a4]) p5 []); auto.
  2:{ rewrite E, app_nil_r, <- app_assoc. simpl. rewrite <- app_assoc. reflexivity. }
  2:{ rewrite app_length; simpl; rewrite app_length; simpl; lia. }
  2:{ rewrite E, !app_length; simpl; rewrite !app_length; simpl; lia. }
  2:{ rewrite app_length; lia. }
  2:{ rewrite skipn_length. lia. }
  cbn [bind]. rewrite skipn_add, app_length. rewrite <- app_assoc. reflexivity.
Qed.

(* position of an element of a tensor with two marked indices *)
Lemma lin5 p1 a2 p3 a4 p5 u1 x u3 y u5 : valid p1 u1 -> valid p3 u3 ->
  lin (p1 ++ a2 :: p3 ++ a4 :: p5) (u1 ++ x :: u3 ++ y :: u5) =
  lin p1 u1 + prod p1 * (x + a2 * (lin p3 u3 + prod p3 * (y + a4 * lin p5 u5))).
Proof.
  intros H1 H3. rewrite lin_app by (apply valid_length; auto). rewrite lin_cons, lin_app by (apply valid_length; auto).
  rewrite lin_cons. reflexivity.
Qed.
Lemma valid5 p1 a2 p3 a4 p5 u1 x u3 y u5 : valid p1 u1 -> x < a2 -> valid p3 u3 -> y < a4 -> valid p5 u5 ->
  valid (p1 ++ a2 :: p3 ++ a4 :: p5) (u1 ++ x :: u3 ++ y :: u5).
Proof.
  intros H1 Hx H3 Hy H5. apply valid_app; [apply valid_length; auto|]. split; auto. apply valid_cons. split; auto.
  apply valid_app; [apply valid_length; auto|]. split; auto. apply valid_cons; auto.
Qed.
Lemma prod5 p1 a2 p3 a4 p5 : prod (p1 ++ a2 :: p3 ++ a4 :: p5) = prod p1 * a2 * prod p3 * a4 * prod p5.
Proof. rewrite prod_app, prod_cons, prod_app, prod_cons. ring. Qed.
Lemma wf_len5 (D : tensor A) p1 a2 p3 a4 p5 : wf D -> dims D = p1 ++ a2 :: p3 ++ a4 :: p5 ->
  length (data D) = prod p1 * a2 * prod p3 * a4 * prod p5.
Proof. intros Hw E. rewrite Hw, E, nelem_prod by (destruct p1; discriminate). apply prod5. Qed.

Lemma repeat_dat (e : A) n q : e = nzero N -> dat (repeat e n) q = nzero N.
Proof.
  intros ->. unfold L_Fold.dat. destruct (nth_error (repeat (nzero N) n) q) eqn:Eq; auto.
  apply nth_error_In in Eq. apply repeat_spec in Eq. auto.
Qed.

Lemma coord_wrap n i p : coord n i p -> (if (i <? 0)%Z then (i + Z.of_nat n)%Z else i) = Z.of_nat p.
Proof. unfold coord. destruct (Z.ltb_spec i 0); lia. Qed.

Lemma trace_ok jd junk (D : tensor A) i j p1 a2 p3 a4 p5 :
  wf D -> dims D = p1 ++ a2 :: p3 ++ a4 :: p5 ->
  (coord (length (dims D)) i (length p1) /\ coord (length (dims D)) j (S (length p1) + length p3) \/
   coord (length (dims D)) j (length p1) /\ coord (length (dims D)) i (S (length p1) + length p3)) ->
  i <> (- Z.of_nat (length (dims D)))%Z -> j <> (- Z.of_nat (length (dims D)))%Z ->
  exists c, trace N jd junk D i j = Ok c /\ wf c /\ dims c = scalar_dims (p1 ++ p3 ++ p5) /\
    forall u1 u3 u5, valid p1 u1 -> valid p3 u3 -> valid p5 u5 ->
      elt c (scalar_ix (u1 ++ u3 ++ u5)) = Some (sum_n N (Nat.min a2 a4) (fun l => val N D (u1 ++ l :: u3 ++ l :: u5))).
Proof.
  intros Hw E Hij Hi0 Hj0. unfold trace. set (rank := length (dims D)) in *.
  assert (Hrank : rank = length p1 + 2 + length p3 + length p5).
  { unfold rank. rewrite E, app_length. simpl. rewrite app_length. simpl. lia. }
  cbv zeta.
  assert (Hb : ((i <? Z.of_nat rank) && (- Z.of_nat rank <? i) = true /\ (j <? Z.of_nat rank) && (- Z.of_nat rank <? j) = true)%Z).
  { unfold coord in Hij. lia. }
  destruct Hb as [-> ->]. cbn [assert_ bind].
  set (i1 := (if (i <? 0) then i + Z.of_nat rank else i)%Z). set (i2 := (if (j <? 0) then j + Z.of_nat rank else j)%Z).
  assert (H12 : i1 = Z.of_nat (length p1) /\ i2 = Z.of_nat (S (length p1) + length p3) \/
                i2 = Z.of_nat (length p1) /\ i1 = Z.of_nat (S (length p1) + length p3)).
  { destruct Hij as [[H1 H2]|[H1 H2]]; apply coord_wrap in H1, H2; auto. }
  clearbody i1 i2.
  assert (Hne : (i1 =? i2)%Z = false) by lia. rewrite Hne.
  assert (Hn1 : Z.to_nat (Z.min i1 i2) = length p1) by lia.
  assert (Hn2 : Z.to_nat (Z.max i1 i2) = S (length p1) + length p3) by lia.
  rewrite Hn1, Hn2.
  rewrite wr_ok by (rewrite length_alloc; lia). cbn [bind].
  set (nd := upd (alloc jd (Nat.max (rank - 2) 1)) 0 1).
  assert (Hnd : length nd = Nat.max (rank - 2) 1) by (unfold nd; rewrite length_upd, length_alloc; auto).
  unfold rank. rewrite (take3 D p1 a2 p3 a4 p5 nd E) by lia. cbn [fst].
  assert (Hdims : p1 ++ p3 ++ p5 ++ skipn (length p1 + length p3 + length p5) nd = scalar_dims (p1 ++ p3 ++ p5)).
  { destruct (Nat.eq_dec (rank - 2) 0) as [Hz|Hz].
    - assert (p1 = [] /\ p3 = [] /\ p5 = []) as (-> & -> & ->) by (repeat split; apply length_zero_iff_nil; lia).
      simpl. unfold nd. rewrite Hz. reflexivity.
    - rewrite skipn_all2 by lia. rewrite app_nil_r. destruct (p1 ++ p3 ++ p5) eqn:E0; [|reflexivity].
      exfalso. apply (f_equal (@length nat)) in E0. rewrite !app_length in E0. simpl in E0. lia. }
  rewrite Hdims. set (D' := p1 ++ p3 ++ p5) in *.
  unfold zeros. rewrite fill_ok. cbn [bind data dims]. rewrite new_tensor_len.
  destruct (trace_loop_ok (data D) (repeat (nzero N) (nelem (scalar_dims D'))) (prod p1) a2 (prod p3) a4 (prod p5)) as (C & EC & HlC & HC).
  { apply wf_len5; auto. }
  { rewrite repeat_length, scalar_nelem. unfold D'. rewrite !prod_app. ring. }
  { intros. apply repeat_dat; auto. }
  rewrite EC. cbn [bind]. eexists; split; [reflexivity|]. rewrite repeat_length in HlC.
  split; [unfold wf; simpl; auto|]. split; [reflexivity|]. intros u1 u3 u5 H1 H3 H5.
  assert (HX : valid D' (u1 ++ u3 ++ u5)).
  { unfold D'. repeat (apply valid_app; [apply valid_length; auto|split; auto]). }
  rewrite elt_valid by (apply scalar_valid; auto). cbn [dims data]. rewrite scalar_lin by auto.
  rewrite (nth_dat N) by (rewrite HlC, scalar_nelem; apply lin_lt; auto).
  unfold D'. rewrite !lin_app by (apply valid_length; auto). f_equal.
  rewrite HC by (apply lin_lt; auto). apply sum_ext. intros l Hl.
  unfold val. rewrite (wf_dat_elt N); auto.
  - rewrite E, lin5 by auto. reflexivity.
  - rewrite E. apply valid5; auto; lia.
  - rewrite E. destruct p1; discriminate.
Qed.

Lemma trace_reject_same jd junk (D : tensor A) i j p :
  coord (length (dims D)) i p -> coord (length (dims D)) j p -> trace N jd junk D i j = Abort.
Proof.
  intros Hi Hj. unfold trace. cbv zeta. set (rank := length (dims D)) in *.
  destruct ((i <? Z.of_nat rank) && (- Z.of_nat rank <? i))%Z; [|reflexivity].
  destruct ((j <? Z.of_nat rank) && (- Z.of_nat rank <? j))%Z; [|reflexivity]. cbn [assert_ bind].
  rewrite (coord_wrap _ _ _ Hi), (coord_wrap _ _ _ Hj), Z.eqb_refl. reflexivity.
Qed.

Lemma trace_reject_index jd junk (D : tensor A) i j :
  (forall p, ~ coord (length (dims D)) i p) \/ (forall p, ~ coord (length (dims D)) j p) -> trace N jd junk D i j = Abort.
Proof.
  intros H. unfold trace. cbv zeta. set (rank := length (dims D)) in *.
  assert (Hx : forall x, (forall p, ~ coord rank x p) -> ((x <? Z.of_nat rank) && (- Z.of_nat rank <? x))%Z = false).
  { intros x Hx. destruct ((x <? Z.of_nat rank) && (- Z.of_nat rank <? x))%Z eqn:Ex; auto. exfalso.
    apply (Hx (Z.to_nat (if x <? 0 then x + Z.of_nat rank else x))%Z). unfold coord. destruct (Z.ltb_spec x 0); lia. }
  destruct H as [H|H].
  - rewrite (Hx i H). reflexivity.
  - destruct ((i <? Z.of_nat rank) && (- Z.of_nat rank <? i))%Z; [|reflexivity]. cbn [assert_ bind]. rewrite (Hx j H). reflexivity.
Qed.

Lemma trace_matrix_ok (m : tensor A) r c : wf m -> dims m = [r; c] ->
  trace_matrix N m = Ok (sum_n N (Nat.min r c) (fun i => val N m [i; i])).
Proof.
  intros Hw E. unfold trace_matrix. rewrite E. simpl length. simpl Nat.eqb. cbn [assert_ bind].
  rewrite (dimension_ok m [] r [c] 0 E eq_refl : dimension m 0 = Ok r).
  rewrite (dimension_ok m [r] c [] 1 E eq_refl : dimension m 1 = Ok c). cbn [bind].
  apply dot_ok. intros p s Hp. assert (Hl := wf_mat m r c Hw E).
  rewrite (rd_dat N) by (rewrite Hl; nia). cbn [bind]. rewrite (val_mat N m r c) by (auto; lia). do 3 f_equal. lia.
Qed.

(* ---- diag ---- *)
Lemma diag_matrix_ok junk (a : tensor A) (k : Z) rows cols n : wf a -> dims a = [n] ->
  Z.of_nat n = Z.min (Z.of_nat rows + Z.min k 0) (Z.of_nat cols - Z.max k 0) ->
  exists m, diag_matrix N junk a k rows cols = Ok m /\ wf m /\ dims m = [rows; cols] /\
    (forall p, p < n -> elt m [Z.to_nat (Z.of_nat p - Z.min k 0); Z.to_nat (Z.of_nat p + Z.max k 0)] = elt a [p]) /\
    (forall i j, i < rows -> j < cols -> (Z.of_nat j - Z.of_nat i)%Z <> k -> elt m [i; j] = Some (nzero N)).
Proof.
  intros Hw Ea Hn. unfold diag_matrix. rewrite fill_ok. cbn [bind]. rewrite new_tensor_len. cbn [new_tensor dims].
  assert (Hla := wf_vec a n Hw Ea).
  set (r0 := (if (k <? 0) then - k else 0)%Z). set (c0 := (if (k <? 0) then 0 else k)%Z).
  assert (Hr0 : r0 = (- Z.min k 0)%Z) by (unfold r0; destruct (Z.ltb_spec k 0); lia). assert (Hc0 : c0 = Z.max k 0) by (unfold c0; destruct (Z.ltb_spec k 0); lia).
  replace (Z.min (Z.of_nat rows - r0) (Z.of_nat cols - c0)) with (Z.of_nat n) by lia.
  replace (Z.of_nat n <? 0)%Z with false by lia. rewrite Hla, Z.eqb_refl. cbn [negb]. rewrite Nat2Z.id.
  set (R := Z.to_nat r0). set (C := Z.to_nat c0).
  assert (ER : r0 = Z.of_nat R) by (unfold R; lia). assert (EC : c0 = Z.of_nat C) by (unfold C; lia).
  assert (En : nelem [rows; cols] = rows * cols) by (unfold nelem, prod; simpl; lia).
  destruct (for_inv (fun z t => dims t = [rows; cols] /\ length (data t) = rows * cols /\
     forall i j, i < rows -> j < cols -> dat (data t) (i + rows * j) =
       if (R <=? i) && (i <? R + z) && (j + R =? i + C) then dat (data a) (i - R) else nzero N)
     n (fun i output => x <- rd (data a) i ;; set2 output (r0 + Z.of_nat i) (c0 + Z.of_nat i) x)
     (mkT [rows; cols] (repeat (nzero N) (nelem [rows; cols])))) as (m & E & Hd & Hl & H).
  - cbn [dims data]. rewrite En. split; [auto|]. split; [apply repeat_length|].
    intros i j Hi Hj. rewrite repeat_dat by auto. replace ((R <=? i) && (i <? R + 0)) with false by lia. reflexivity.
  - intros z t Hz (Hd & Hl & H). rewrite (rd_dat N) by lia. cbn [bind].
    unfold set2, get_dimensions2. rewrite Hd. cbn [bind].
    rewrite ER, EC, <- !Nat2Z.inj_add. rewrite !normalize_nonneg by lia. cbn [bind]. unfold set_at.
    assert (Hlt : R + z + rows * (C + z) < rows * cols) by (apply mix_lt; lia).
    rewrite wr_ok by lia. cbn [bind]. eexists; split; [reflexivity|]. cbn [dims data].
    split; [auto|]. split; [rewrite length_upd; auto|].
    intros i j Hi Hj. rewrite dat_upd by lia.
    replace ((C + z) * rows + (R + z)) with (R + z + rows * (C + z)) by lia.
    destruct (Nat.eq_dec (i + rows * j) (R + z + rows * (C + z))) as [Ep|Ep].
    + rewrite Ep, Nat.eqb_refl. apply mix_inj in Ep as [-> ->]; try lia.
      replace ((R <=? R + z) && (R + z <? R + S z) && (C + z + R =? R + z + C)) with true by lia. f_equal; lia.
    + replace (i + rows * j =? R + z + rows * (C + z)) with false by lia. rewrite H by auto.
      destruct (Nat.eq_dec (j + R) (i + C)) as [Ej|Ej].
      * replace (j + R =? i + C) with true by lia.
        assert (i <> R + z).
        { intros Ei. apply Ep. assert (j = C + z) by lia. subst. reflexivity. }
        replace ((R <=? i) && (i <? R + S z) && true) with ((R <=? i) && (i <? R + z) && true) by lia. reflexivity.
      * replace (j + R =? i + C) with false by lia. rewrite !andb_false_r. reflexivity.
  - exists m. rewrite E. split; [reflexivity|]. assert (Hwm : wf m) by (unfold wf; rewrite Hd, Hl, En; auto).
    split; [auto|]. split; [auto|]. split.
    + intros p Hp. rewrite (wf_dat_elt N m) by (rewrite ?Hd; auto; try discriminate; repeat constructor; lia).
      rewrite (wf_dat_elt N a) by (rewrite ?Ea; auto; try discriminate; repeat constructor; lia).
      rewrite Hd, Ea, !lin_cons, !lin_nil, !Nat.mul_0_r, !Nat.add_0_r.
      replace (Z.to_nat (Z.of_nat p - Z.min k 0)) with (R + p) by lia.
      replace (Z.to_nat (Z.of_nat p + Z.max k 0)) with (C + p) by lia.
      rewrite H by lia.
      replace ((R <=? R + p) && (R + p <? R + n) && (C + p + R =? R + p + C)) with true by lia. do 2 f_equal; lia.
    + intros i j Hi Hj Hne. rewrite (wf_dat_elt N m) by (rewrite ?Hd; auto; try discriminate; repeat constructor; lia).
      rewrite Hd, !lin_cons, !lin_nil, !Nat.mul_0_r, !Nat.add_0_r. rewrite H by auto.
      replace (j + R =? i + C) with false by lia. rewrite andb_false_r. reflexivity.
Qed.

Lemma diag_matrix_reject junk (a : tensor A) (k : Z) rows cols : wf a ->
  Z.of_nat (nelem (dims a)) <> Z.min (Z.of_nat rows + Z.min k 0) (Z.of_nat cols - Z.max k 0) ->
  diag_matrix N junk a k rows cols = Abort.
Proof.
  intros Hw Hn. unfold diag_matrix. rewrite fill_ok. cbn [bind]. cbv zeta.
  set (l := Z.min _ _). assert (El : l = Z.min (Z.of_nat rows + Z.min k 0) (Z.of_nat cols - Z.max k 0)) by (unfold l; destruct (Z.ltb_spec k 0); lia).
  destruct (l <? 0)%Z; auto. rewrite Hw. replace (l =? Z.of_nat (nelem (dims a)))%Z with false by lia. reflexivity.
Qed.

(* ---- take_diag ---- *)
Lemma take_diag_loop_ok (D out : list A) a1 a2 a2b a3 a4 a5 a4' (k : Z) :
  length D = a1 * a2 * a3 * a4 * a5 -> length out = a1 * a2b * a3 * a5 ->
  a5 <= 1 \/ a4' = a4 ->
  a2b + Z.to_nat (Z.max k 0) <= a2 -> a2b + Z.to_nat (Z.max (- k) 0) <= a4 ->
  exists C, take_diag_loop D a1 a2 a2b a3 a4' a5 k out = Ok C /\ length C = length out /\
    forall i l z m, i < a1 -> l < a2b -> z < a3 -> m < a5 ->
      nth_error C (i + a1 * (l + a2b * (z + a3 * m))) =
      Some (dat D (i + a1 * (Z.to_nat (Z.max k 0) + l + a2 * (z + a3 * (Z.to_nat (Z.max (- k) 0) + l + a4 * m))))).
Proof.
  intros HD Ho H4 Hb1 Hb2. unfold take_diag_loop.
  replace (Z.to_nat (if (k <? 0)%Z then (- k)%Z else 0%Z)) with (Z.to_nat (Z.max (- k) 0)) by (destruct (Z.ltb_spec k 0); lia).
  replace (Z.to_nat (if (k <? 0)%Z then 0%Z else k)) with (Z.to_nat (Z.max k 0)) by (destruct (Z.ltb_spec k 0); lia).
  set (o1 := Z.to_nat (Z.max k 0)) in *. set (o2 := Z.to_nat (Z.max (- k) 0)) in *. cbv zeta.
  rewrite !for_nest.
  set (pi := fun ix => match ix with [i; z; l; m] => [i; l; z; m] | _ => ix end : list nat).
  set (f := fun ix => match ix with [i; z; l; m] => dat D (i + a1 * (o1 + l + a2 * (z + a3 * (o2 + l + a4 * m)))) | _ => nzero N end).
  assert (Ep : a5 * a2b * a3 * a1 = prod [a1; a3; a2b; a5]) by (unfold prod; simpl; ring).
  rewrite Ep.
  match goal with |- exists C, for_ _ ?b _ = _ /\ _ => set (body := b) end.
  destruct (wloop_perm [a1; a3; a2b; a5] [a1; a2b; a3; a5] pi f out body) as (C & E & Hl & H).
  - rewrite Ho. unfold prod; simpl; ring.
  - intros ix Hv. destruct ix as [|i [|z [|l [|m [|]]]]]; try (apply valid_length in Hv; discriminate).
    rewrite !valid_cons in Hv. destruct Hv as (Hi & Hz & Hl & Hm & _). unfold pi. repeat constructor; auto.
  - intros ix1 ix2 H1 H2.
    destruct ix1 as [|i [|z [|l [|m [|]]]]]; try (apply valid_length in H1; discriminate).
    destruct ix2 as [|i' [|z' [|l' [|m' [|]]]]]; try (apply valid_length in H2; discriminate).
    unfold pi. congruence.
  - intros ix o Hv Hlo. destruct ix as [|i [|z [|l [|m [|]]]]]; try (apply valid_length in Hv; discriminate).
    rewrite !valid_cons in Hv. destruct Hv as (Hi & Hz & Hl & Hm & _). unfold body, pi, f.
    rewrite ?lin_cons, ?lin_nil, ?Nat.mul_0_r, ?Nat.add_0_r.
    repeat first [rewrite mix_mod by auto | rewrite mix_div by auto].
    assert (E4 : a4' * m = a4 * m) by (destruct H4 as [H4| ->]; auto; replace m with 0 by lia; lia).
    rewrite E4.
    rewrite (rd_dat N).
    2:{ rewrite HD. replace (a1 * a2 * a3 * a4 * a5) with (a1 * (a2 * (a3 * (a4 * a5)))) by ring.
        repeat (apply mix_lt; [lia|]). auto. }
    reflexivity.
  - exists C. split; [exact E|]. split; [auto|]. intros i l z m Hi Hl' Hz Hm.
    specialize (H [i; z; l; m]). unfold pi, f in H. rewrite !lin_cons, lin_nil, Nat.mul_0_r, Nat.add_0_r in H.
    apply H. repeat constructor; auto.
Qed.

Lemma take_diag_ok jd junk (a : tensor A) (k i j : Z) p1 a2 p3 a4 p5 :
  wf a -> dims a = p1 ++ a2 :: p3 ++ a4 :: p5 ->
  coord (length (dims a)) i (length p1) -> coord (length (dims a)) j (S (length p1) + length p3) ->
  (- Z.of_nat a2 < k < Z.of_nat a4)%Z ->
  prod p5 <= 1 \/ prod p3 = a4 ->
  exists c n, take_diag jd junk a k i j = Ok c /\ take_diag jd junk a (- k) j i = Ok c /\ wf c /\
    Z.of_nat n = Z.min (Z.of_nat a2 + Z.min k 0) (Z.of_nat a4 - Z.max k 0) /\
    dims c = p1 ++ n :: p3 ++ p5 /\
    forall u1 x u3 u5, valid p1 u1 -> x < n -> valid p3 u3 -> valid p5 u5 ->
      elt c (u1 ++ x :: u3 ++ u5) =
      elt a (u1 ++ Z.to_nat (Z.of_nat x - Z.min k 0) :: u3 ++ Z.to_nat (Z.of_nat x + Z.max k 0) :: u5).
Proof.
  intros Hw E Hi Hj Hk H5.
  set (n := Z.to_nat (Z.min (Z.of_nat a2 + Z.min k 0) (Z.of_nat a4 - Z.max k 0))).
  assert (Hlen : length (dims a) = length p1 + 2 + length p3 + length p5).
  { rewrite E, app_length. simpl. rewrite app_length. simpl. lia. }
  set (new := p1 ++ n :: p3 ++ p5).
  (* both calls compute the same *)
  set (rest := if (a2 =? 1) && (a4 =? 1) then reshape a (p1 ++ a2 :: p3 ++ p5) else
     new_dims <- wr (p1 ++ a2 :: p3 ++ p5) (length p1) n ;;
     let output := new_tensor junk new_dims in
     if n =? 0 then Ok output else
     c <- take_diag_loop (data a) (prod p1) a2 n (prod p3) (prod p3) (prod p5) (- k) (data output) ;;
     Ok (mkT new_dims c)).
  assert (Common : forall k' i' j',
     (coord (length (dims a)) i' (length p1) /\ coord (length (dims a)) j' (S (length p1) + length p3) /\ k' = k \/
      coord (length (dims a)) j' (length p1) /\ coord (length (dims a)) i' (S (length p1) + length p3) /\ k' = (- k)%Z) ->
     take_diag jd junk a k' i' j' = rest).
  { intros k' i' j' Hc. unfold take_diag. set (rank := length (dims a)) in *. cbv zeta.
    set (i1 := (if (i' <? 0) then i' + Z.of_nat rank else i')%Z). set (i2 := (if (j' <? 0) then j' + Z.of_nat rank else j')%Z).
    assert (H12 : i1 = Z.of_nat (length p1) /\ i2 = Z.of_nat (S (length p1) + length p3) /\ k' = k \/
                  i2 = Z.of_nat (length p1) /\ i1 = Z.of_nat (S (length p1) + length p3) /\ k' = (- k)%Z).
    { destruct Hc as [(H1 & H2 & H3)|(H1 & H2 & H3)]; apply coord_wrap in H1, H2; auto. }
    clearbody i1 i2.
    assert (Hb1 : ((i1 <? Z.of_nat rank) && (0 <=? i1))%Z = true) by lia.
    assert (Hb2 : ((i2 <? Z.of_nat rank) && (0 <=? i2))%Z = true) by lia.
    rewrite Hb1, Hb2. cbn [assert_ bind].
    assert (Hn1 : Z.to_nat (Z.min i1 i2) = length p1) by lia.
    assert (Hn2 : Z.to_nat (Z.max i1 i2) = S (length p1) + length p3) by lia.
    assert (Hkk : (if (i2 <? i1) then - k' else k')%Z = k) by (destruct (Z.ltb_spec i2 i1); lia).
    rewrite Hn1, Hn2, Hkk. replace (Nat.max (S (length p1)) (S (length p1) + length p3)) with (S (length p1) + length p3) by lia.
    set (nd := alloc jd (Nat.max (rank - 1) 1)).
    assert (Hnd : length nd = length p1 + S (length p3 + length p5)) by (unfold nd; rewrite length_alloc; lia).
    rewrite (take_dims_ok0 a p1 (a2 :: p3 ++ a4 :: p5)); auto; [|lia].
    cbn [bind]. rewrite (dimension_ok a p1 a2 (p3 ++ a4 :: p5)) by auto. cbn [bind].
    destruct (skipn (length p1) nd) as [|x0 tl] eqn:Esk.
    { apply (f_equal (@length nat)) in Esk. rewrite skipn_length in Esk. simpl in Esk. lia. }
    assert (Htl : length tl = length p3 + length p5).
    { apply (f_equal (@length nat)) in Esk. rewrite skipn_length in Esk. simpl in Esk. lia. }
    unfold put. rewrite wr_ok by (rewrite app_length; simpl; lia). cbn [bind]. rewrite upd_app.
    replace (p1 ++ a2 :: tl) with ((p1 ++ [a2]) ++ tl) by (rewrite <- app_assoc; reflexivity).
    rewrite (take_dims_ok a (p1 ++ [a2]) p3 (a4 :: p5)); auto.
    2:{ rewrite E, <- app_assoc. reflexivity. }
    2:{ rewrite app_length; simpl; lia. }
    2:{ rewrite app_length; simpl; lia. }
    2:{ rewrite app_length; simpl; lia. }
    2:{ lia. }
    cbn [bind].
    rewrite (dimension_ok a (p1 ++ a2 :: p3) a4 p5).
    2:{ rewrite E, <- app_assoc. reflexivity. }
    2:{ rewrite app_length; simpl; lia. }
    cbn [bind]. rewrite app_assoc.
    rewrite (take_dims_ok a (p1 ++ a2 :: p3 ++ [a4]) p5 []); auto.
    2:{ rewrite E, app_nil_r, <- app_assoc. simpl. rewrite <- app_assoc. reflexivity. }
    2:{ rewrite app_length; simpl; rewrite app_length; simpl; lia. }
    2:{ unfold rank. rewrite E, !app_length; simpl; rewrite !app_length; simpl; lia. }
    2:{ rewrite !app_length; simpl; lia. }
    2:{ rewrite skipn_length. lia. }
    cbn [bind fst]. rewrite skipn_add, skipn_all2 by lia. rewrite app_nil_r.
    replace (((p1 ++ [a2]) ++ p3) ++ p5) with (p1 ++ a2 :: p3 ++ p5) by (rewrite <- !app_assoc; reflexivity).
    replace ((k <=? - Z.of_nat a2) || (Z.of_nat a4 <=? k))%Z with false by lia.
    replace (Z.to_nat (if (k <? 0)%Z then Z.max 0 (Z.min (Z.of_nat a2 + k) (Z.of_nat a4)) else Z.max 0 (Z.min (Z.of_nat a2) (Z.of_nat a4 - k)))%Z)
      with n by (unfold n; destruct (Z.ltb_spec k 0); lia).
    reflexivity. }
  rewrite (Common k i j) by auto. rewrite (Common (- k)%Z j i) by auto.
  enough (HR : exists c, rest = Ok c /\ wf c /\ dims c = new /\
    forall u1 x u3 u5, valid p1 u1 -> x < n -> valid p3 u3 -> valid p5 u5 ->
      elt c (u1 ++ x :: u3 ++ u5) =
      elt a (u1 ++ Z.to_nat (Z.of_nat x - Z.min k 0) :: u3 ++ Z.to_nat (Z.of_nat x + Z.max k 0) :: u5)).
  { destruct HR as (c & H1 & H2 & H3 & H4). exists c, n. repeat split; auto. unfold n. lia. }
  assert (Hla := wf_len5 a p1 a2 p3 a4 p5 Hw E).
  assert (Hnew : new <> []) by (unfold new; destruct p1; discriminate).
  assert (Hpn : prod new = prod p1 * n * prod p3 * prod p5) by (unfold new; rewrite prod_app, prod_cons, prod_app; ring).
  unfold rest. destruct ((a2 =? 1) && (a4 =? 1)) eqn:E1.
  - assert (a2 = 1 /\ a4 = 1) as [-> ->] by lia. assert (k = 0%Z) by lia. subst k.
    assert (En : n = 1) by (unfold n; lia). unfold new in *. rewrite En in *.
    rewrite reshape_ok by (rewrite Hla, nelem_prod by auto; rewrite Hpn; ring).
    eexists; split; [reflexivity|]. split; [unfold wf; cbn [data dims]; rewrite Hla, nelem_prod by auto; rewrite Hpn; ring|].
    split; [reflexivity|]. intros u1 x u3 u5 H1 Hx H3 H5'. replace x with 0 by lia. simpl Z.min. simpl Z.max. simpl Z.to_nat.
    unfold elt. cbn [dims data].
    rewrite (proj2 (validb_iff (p1 ++ 1 :: p3 ++ p5) (u1 ++ 0 :: u3 ++ u5))).
    2:{ apply valid_app; [apply valid_length; auto|]. split; auto. apply valid_cons. split; auto.
        apply valid_app; [apply valid_length; auto|]. auto. }
    rewrite E. rewrite (proj2 (validb_iff (p1 ++ 1 :: p3 ++ 1 :: p5) (u1 ++ 0 :: u3 ++ 0 :: u5))) by (apply valid5; auto).
    rewrite lin5 by auto. rewrite lin_app by (apply valid_length; auto). rewrite lin_cons, lin_app by (apply valid_length; auto).
    f_equal. ring.
  - rewrite wr_ok by (rewrite app_length; simpl; lia). cbn [bind]. rewrite upd_app. fold new. cbv zeta.
    destruct (Nat.eq_dec n 0) as [En|En].
    { rewrite En, Nat.eqb_refl. eexists; split; [reflexivity|]. split; [apply new_tensor_wf|]. split; [reflexivity|]. intros; lia. }
    replace (n =? 0) with false by lia.
    destruct (take_diag_loop_ok (data a) (data (new_tensor junk new)) (prod p1) a2 n (prod p3) a4 (prod p5) (prod p3) (- k)) as (C & EC & HlC & HC); auto.
    { rewrite new_tensor_len, nelem_prod by auto. rewrite Hpn; ring. }
    { unfold n. lia. }
    { unfold n. lia. }
    rewrite EC. cbn [bind]. eexists; split; [reflexivity|]. rewrite new_tensor_len in HlC.
    split; [unfold wf; simpl; auto|]. split; [reflexivity|]. intros u1 x u3 u5 H1 Hx H3 H5'.
    rewrite elt_valid.
    2:{ cbn [dims]. unfold new. apply valid_app; [apply valid_length; auto|]. split; auto. apply valid_cons. split; auto.
        apply valid_app; [apply valid_length; auto|]. auto. }
    cbn [dims data]. unfold new. rewrite lin_app by (apply valid_length; auto). rewrite lin_cons, lin_app by (apply valid_length; auto).
    rewrite HC by (auto; apply lin_lt; auto).
    rewrite (wf_dat_elt N a); auto.
    2:{ rewrite E. apply valid5; auto; unfold n in Hx; lia. }
    2:{ rewrite E. destruct p1; discriminate. }
    rewrite E, lin5 by auto. do 2 f_equal.
    replace (Z.to_nat (Z.of_nat x - Z.min k 0)) with (Z.to_nat (Z.max (- k) 0) + x) by lia.
    replace (Z.to_nat (Z.of_nat x + Z.max k 0)) with (Z.to_nat (Z.max (- - k) 0) + x) by lia. reflexivity.
Qed.

Lemma vec_eq (x y : tensor A) n : wf x -> wf y -> dims x = [n] -> dims y = [n] ->
  (forall i, i < n -> elt x [i] = elt y [i]) -> x = y.
Proof.
  intros Hx Hy Ex Ey H. destruct x as [dx ex], y as [dy ey]. simpl in *. subst dx dy. f_equal.
  pose proof (wf_vec _ n Hx eq_refl) as Lx. pose proof (wf_vec _ n Hy eq_refl) as Ly. simpl in Lx, Ly.
  apply list_eq_nth_len; [lia|]. intros q Hq.
  specialize (H q ltac:(lia)). rewrite !elt_valid in H by (simpl; repeat constructor; lia). cbn [dims data] in H.
  rewrite !lin_cons, lin_nil, Nat.mul_0_r, Nat.add_0_r in H. exact H.
Qed.

Lemma take_diag_diag jd junk (v : tensor A) n k : wf v -> dims v = [n] -> 0 < n ->
  exists m, diag N junk v k = Ok m /\ take_diag jd junk m k 0 (-1) = Ok v.
Proof.
  intros Hw E Hn. unfold diag. rewrite (wf_vec v n Hw E). cbv zeta. set (s := n + Z.to_nat (Z.abs k)).
  destruct (diag_matrix_ok junk v k s s n Hw E ltac:(unfold s; lia)) as (m & E1 & W1 & D1 & H1 & H2).
  exists m. split; [auto|].
  destruct (take_diag_ok jd junk m k 0 (-1) [] s [] s []) as (c & n' & E2 & _ & W2 & Hn' & D2 & H3); auto.
  - rewrite D1. unfold coord; simpl; lia.
  - rewrite D1. unfold coord; simpl; lia.
  - unfold s. lia.
  - rewrite E2. f_equal. assert (n' = n) by (unfold s in *; lia). subst n'. cbn [app] in D2.
    apply (vec_eq c v n); auto. intros i Hi. specialize (H3 [] i [] [] ltac:(constructor) Hi ltac:(constructor) ltac:(constructor)).
    cbn [app] in H3. rewrite H3. apply H1; auto.
Qed.

(* ---- squeeze ---- *)
Lemma squeeze_loop_ok (d : list nat) : Forall (fun x => 0 < x) d -> forall pre tail, length tail = length (non_unit d) ->
  squeeze_loop d (pre ++ tail, length pre) = Ok (pre ++ non_unit d).
Proof.
  induction 1 as [|b d Hb Hd IH]; intros pre tail Hl; simpl in *.
  - destruct tail; [auto|discriminate].
  - rewrite app_length. destruct tail as [|y tail].
    + replace (length pre =? length pre + length (@nil nat)) with true by (simpl; lia).
      destruct (negb (b =? 1)); [discriminate|]. simpl fst. f_equal.
      destruct (non_unit d); [reflexivity|discriminate].
    + replace (length pre =? length pre + length (y :: tail)) with false by (simpl; lia).
      destruct (Nat.eq_dec b 1) as [->|Hb1].
      * replace (1 <? 1) with false by lia. simpl. apply IH. exact Hl.
      * replace (1 <? b) with true by lia. replace (b =? 1) with false in * by lia. cbn [negb] in *.
        unfold put. rewrite wr_ok by (rewrite app_length; simpl; lia). cbn [bind]. rewrite upd_app.
        replace (pre ++ b :: tail) with ((pre ++ [b]) ++ tail) by (rewrite <- app_assoc; reflexivity).
        replace (S (length pre)) with (length (pre ++ [b])) by (rewrite app_length; simpl; lia).
        rewrite IH by (simpl in Hl; unfold non_unit in *; lia). rewrite <- app_assoc. reflexivity.
Qed.

Lemma non_unit_cons b d : non_unit (b :: d) = if b =? 1 then non_unit d else b :: non_unit d.
Proof. unfold non_unit. simpl. destruct (b =? 1); reflexivity. Qed.

Lemma non_unit_length d : length (non_unit d) = length d - count_occ Nat.eq_dec d 1.
Proof.
  induction d as [|b d IH]; [reflexivity|]. rewrite non_unit_cons. pose proof (count_occ_bound Nat.eq_dec 1 d).
  destruct (Nat.eq_dec b 1) as [->|Hb].
  - rewrite count_occ_cons_eq by auto. simpl. exact IH.
  - rewrite count_occ_cons_neq by auto. replace (b =? 1) with false by lia. simpl length. rewrite IH. lia.
Qed.

Lemma prod_non_unit d : prod (non_unit d) = prod d.
Proof.
  induction d as [|b d IH]; [reflexivity|]. rewrite non_unit_cons, prod_cons. destruct (Nat.eq_dec b 1) as [->|Hb].
  - rewrite Nat.eqb_refl. lia.
  - replace (b =? 1) with false by lia. rewrite prod_cons. lia.
Qed.

Lemma drop_unit_ok d : forall ix, valid d ix -> valid (non_unit d) (drop_unit d ix) /\ lin (non_unit d) (drop_unit d ix) = lin d ix.
Proof.
  induction d as [|b d IH]; intros ix H; inversion H as [|i ? ix' ? Hi Hix]; subst; [split; [constructor|reflexivity]|].
  destruct (IH _ Hix) as [H1 H2]. rewrite non_unit_cons. cbn [drop_unit].
  destruct (Nat.eqb_spec b 1) as [->|Hb].
  - split; auto. rewrite H2, lin_cons. lia.
  - split; [apply valid_cons; auto|]. rewrite !lin_cons, H2. reflexivity.
Qed.

Lemma squeeze_ok jd (t : tensor A) : wf t -> Forall (fun x => 0 < x) (dims t) -> non_unit (dims t) <> [] ->
  exists c, squeeze jd t = Ok c /\ wf c /\ dims c = non_unit (dims t) /\ data c = data t /\
    forall ix, valid (dims t) ix -> elt c (drop_unit (dims t) ix) = elt t ix.
Proof.
  intros Hw Hp Hne. unfold squeeze, squeeze_dimensions.
  pose proof (squeeze_loop_ok (dims t) Hp [] (alloc jd (length (dims t) - count_occ Nat.eq_dec (dims t) 1))) as Hs.
  cbn [app length] in Hs. rewrite Hs by (rewrite length_alloc, non_unit_length; reflexivity).
  cbn [bind].
  assert (Hd : dims t <> []) by (intros E; rewrite E in Hne; apply Hne; reflexivity).
  assert (Hl : length (data t) = nelem (non_unit (dims t))).
  { rewrite Hw, !nelem_prod by auto. symmetry. apply prod_non_unit. }
  rewrite reshape_ok by auto. eexists; split; [reflexivity|]. split; [exact Hl|]. split; [reflexivity|]. split; [reflexivity|].
  intros ix Hix. destruct (drop_unit_ok _ _ Hix) as [H1 H2]. rewrite !elt_valid by auto. cbn [dims data]. rewrite H2. reflexivity.
Qed.
End Trace.
