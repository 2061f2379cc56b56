(* Tensor operations on vectors with values of their own: each one changes the vector
   it names and appends new ones. *)
From Verif Require Import Base Spec M_RefCount S_RefCount L_RefCount M_Iter S_Iter L_Iter M_Tensor M_Arith M_Range M_TensorHeap S_TensorHeap L_TensorHeap.
Local Open Scope nat_scope.

Section O.
Context {A : Type}.
Implicit Types (I : sstate nat) (E : sstate A).

Lemma upd_app_l {B} (l m : list B) i x : i < length l -> upd (l ++ m) i x = upd l i x ++ m.
Proof. revert i. induction l as [|y l IH]; intros [|i] H; cbn in *; try lia; [reflexivity|]. rewrite IH by lia. reflexivity. Qed.
Lemma upd_app_r {B} (l m : list B) i x : upd (l ++ m) (length l + i) x = l ++ upd m i x.
Proof. induction l as [|y l IH]; cbn; [reflexivity|]. rewrite IH. reflexivity. Qed.
Lemma svar_at {B} (s m : sstate B) i : svar (s ++ m) (length s + i) = svar m i.
Proof. unfold svar. rewrite nth_error_app2 by lia. replace (length s + i - length s) with i by lia. reflexivity. Qed.
Lemma svar_same {B} (s : sstate B) h l : svar s h = Some l -> upd s h (Some l) = s.
Proof. intros H. apply upd_same. apply svar_nth. exact H. Qed.

Lemma w_tensor_new junk I E d l : svar I d = Some l ->
  wrun (tensor_new junk d) (mkW I E []) = Some (mkW (I ++ [Some l]) (E ++ [Some (alloc junk (total_size l))]) [], (length I, length E)).
Proof.
  intros H. unfold tensor_new. eapply wbind_ok; [apply w_listI; eauto|]. eapply wbind_ok; [apply w_makeE_new|]. eapply wbind_ok; [apply w_makeI_copy; eauto|]. reflexivity.
Qed.
Lemma w_tensor_copy I E d e l a : svar I d = Some l -> svar E e = Some a ->
  wrun (tensor_copy (d, e)) (mkW I E []) = Some (mkW (I ++ [Some l]) (E ++ [Some a]) [], (length I, length E)).
Proof.
  intros H H'. unfold tensor_copy. cbn [fst snd]. eapply wbind_ok; [apply w_makeE_copy; eauto|]. eapply wbind_ok; [apply w_makeI_copy; eauto|]. reflexivity.
Qed.
Lemma w_tensor_assign I E d e l a d' e' l' a' : svar I d = Some l -> svar E e = Some a -> svar I d' = Some l' -> svar E e' = Some a' ->
  wrun (tensor_assign (d, e) (d', e')) (mkW I E []) = Some (mkW (upd I d (Some l')) (upd E e (Some a')) [], tt).
Proof. intros. unfold tensor_assign. cbn [fst snd]. eapply wbind_ok; [eapply w_assignE; eauto|]. eapply w_assignI; eauto. Qed.
Lemma w_tensor_drop I E d e l a : svar I d = Some l -> svar E e = Some a ->
  wrun (tensor_drop (d, e)) (mkW I E []) = Some (mkW (upd I d None) (upd E e None) [], tt).
Proof. intros. unfold tensor_drop. cbn [fst snd]. eapply wbind_ok; [eapply w_destroyI; eauto|]. eapply w_destroyE; eauto. Qed.
Lemma w_tensor_share I E g d e l a : svar I g = Some l -> svar E e = Some a -> (total_size l =? length a) = true ->
  wrun (tensor_share g (d, e)) (mkW I E []) = Some (mkW (I ++ [Some l]) (E ++ [Some a]) [], (length I, length E)).
Proof.
  intros H H' H2. unfold tensor_share. cbn [fst snd]. eapply wbind_ok; [apply w_makeE_copy; eauto|]. eapply wbind_ok; [apply w_makeI_copy; eauto|].
  eapply wbind_ok; [apply w_listI; apply svar_end|]. eapply wbind_ok; [apply w_sizeE; apply svar_end|]. rewrite H2. reflexivity.
Qed.
Lemma w_tensor_reshape I E g d e l0 l a : svar I d = Some l0 -> svar I g = Some l -> svar E e = Some a -> (total_size l =? length a) = true ->
  wrun (tensor_reshape (d, e) g) (mkW I E []) = Some (mkW (upd I d (Some l)) E [], tt).
Proof.
  intros H0 H H' H2. unfold tensor_reshape. cbn [fst snd]. eapply wbind_ok; [apply w_listI; eauto|]. eapply wbind_ok; [apply w_sizeE; eauto|]. rewrite H2. cbn [assert_ pbind]. eapply w_assignI; eauto.
Qed.
Lemma w_tensor_set I E d e (x y : tensor A) i v : svar E e = Some (data x) -> set1 x i v = Ok y ->
  wrun (tensor_set (d, e) i v) (mkW I E []) = Some (mkW I (upd E e (Some (data y))) [], tt) /\ dims y = dims x.
Proof.
  intros H. unfold set1, tensor_set. cbn [snd]. destruct (normalize_index i (length (data x))) as [k| | |] eqn:En; try discriminate. cbn [bind]. unfold set_at, wr.
  destruct (k <? length (data x)) eqn:Ek; try discriminate. cbn [bind]. intros Hy. injection Hy as <-. split; [|reflexivity].
  eapply wbind_ok; [apply w_sizeE; eauto|]. rewrite En. cbn [pbind data]. apply w_writeE; auto. apply Nat.ltb_lt. exact Ek.
Qed.

Lemma nth_forget_true f K q h : nth_error K q = Some (Some (true, h)) -> (forall g, f (true, g) = false) -> nth_error (forget f K) q = Some (Some (true, h)).
Proof. intros H F. unfold forget. rewrite nth_error_map, H. cbn. rewrite F. reflexivity. Qed.
Lemma length_forget f K : length (forget f K) = length K.
Proof. apply map_length. Qed.
Definition stays (h : nat) (K K' : kept) : Prop :=
  forall q b g, nth_error K q = Some (Some (b, g)) -> b = true \/ g <> h -> nth_error K' q = Some (Some (b, g)).
Lemma stays_begin h K : stays h K (forget (fun p => negb (fst p) && (snd p =? h)) K ++ [Some (true, h)]).
Proof.
  intros q b g H D. rewrite nth_error_app1 by (rewrite length_forget; eapply nth_error_lt_inv; eauto). unfold forget. rewrite nth_error_map, H. cbn.
  destruct D as [->|D]; [reflexivity|]. destruct (Nat.eqb_spec g h); [congruence|]. destruct b; reflexivity.
Qed.
Lemma w_begin I E K h l : svar E h = Some l ->
  exists K', wrun (beginE h) (mkW I E K) = Some (mkW I E K', length K) /\ length K' = S (length K) /\ nth_error K' (length K) = Some (Some (true, h)) /\ stays h K K'.
Proof.
  intros H. eexists. split; [eapply w_beginE; eauto|]. split; [rewrite app_length, length_forget; cbn; lia|]. split; [|apply stays_begin].
  rewrite nth_error_app2; rewrite length_forget; [|lia]. rewrite Nat.sub_diag. reflexivity.
Qed.
Lemma w_cbegin I E K h l : svar E h = Some l ->
  exists K', wrun (cbeginE h) (mkW I E K) = Some (mkW I E K', length K) /\ length K' = S (length K) /\ nth_error K' (length K) = Some (Some (false, h)) /\
    (forall q p, nth_error K q = Some (Some p) -> nth_error K' q = Some (Some p)).
Proof.
  intros H. eexists. split; [apply w_cbeginE with (l := l); eauto|]. split; [rewrite app_length; cbn; lia|]. split.
  - rewrite nth_error_app2 by lia. rewrite Nat.sub_diag. reflexivity.
  - intros q p Hq. rewrite nth_error_app1; auto. eapply nth_error_lt_inv; eauto.
Qed.
Lemma w_begins I E h l n : svar E h = Some l -> forall K,
  exists K' ps, wrun (begins n h) (mkW I E K) = Some (mkW I E K', ps) /\ length ps = n /\ length K' = length K + n /\
    Forall (fun p => nth_error K' p = Some (Some (true, h))) ps /\ stays h K K'.
Proof.
  intros H. induction n as [|n IH]; intros K; cbn [begins].
  - exists K, []. split; [reflexivity|]. split; [reflexivity|]. split; [lia|]. split; [constructor|]. intros q b g Hq _. exact Hq.
  - destruct (w_begin I E K h l H) as (K1 & E1 & L1 & N1 & S1). destruct (IH K1) as (K2 & ps & E2 & L2 & L2' & N2 & S2).
    exists K2, (length K :: ps). split; [|split; [|split; [|split]]].
    + eapply wbind_ok; [exact E1|]. eapply wbind_ok; [exact E2|]. reflexivity.
    + cbn. lia.
    + lia.
    + constructor; auto.
    + intros q b g Hq D. apply S2; auto.
Qed.

Lemma data_loop (x : tensor A) n body y : (d <- for_ n body (data x) ;; Ok (mkT (dims x) d)) = Ok y -> for_from 0 n body (data x) = Ok (data y) /\ dims y = dims x.
Proof. unfold for_. destruct (for_from 0 n body (data x)); cbn; intros H; inversion H; subst; auto. Qed.

Lemma w_tensor_fill I E d e (x y : tensor A) v : svar E e = Some (data x) -> fill_with x v = Ok y ->
  wrun (tensor_fill (d, e) v) (mkW I E []) = Some (mkW I (upd E e (Some (data y))) [], tt) /\ dims y = dims x.
Proof.
  intros H F. apply data_loop in F as [F D]. split; [|exact D]. unfold tensor_fill. cbn [snd].
  destruct (w_begin I E [] e _ H) as (K1 & E1 & L1 & N1 & S1). destruct (w_begin I E K1 e _ H) as (K2 & E2 & L2 & N2 & S2).
  eapply w_locals with (K' := K2). eapply wbind_ok; [exact E1|]. eapply wbind_ok; [exact E2|]. eapply wbind_ok; [apply w_sizeE; eauto|].
  rewrite <- (svar_same E e (data x)) at 1 by exact H. eapply w_store_loop; [exact F|]. intros k a a' _ G. unfold wr in G. destruct (k <? length a) eqn:Ek; inversion G; subst.
  rewrite <- (upd_upd E e (Some a) (Some (upd a k v))). apply w_storeE; [apply S2; auto|eapply svar_upd_eq; eauto|apply Nat.ltb_lt; auto].
Qed.

(* two pointers into one vector: the element is read before it is written *)
Lemma self_loop (f : A -> A -> A) b0 n : forall i a an,
  for_from i n (fun i d => x <- rd d i ;; y <- rd b0 i ;; wr d i (f x y)) a = Ok an -> (forall j, i <= j -> nth_error a j = nth_error b0 j) ->
  for_from i n (fun i d => x <- rd d i ;; y <- rd d i ;; wr d i (f x y)) a = Ok an.
Proof.
  induction n as [|n IH]; intros i a an H Heq; cbn [for_from] in *; [exact H|]. unfold rd in *. rewrite <- (Heq i ltac:(lia)) in H.
  destruct (nth_error a i) as [v|] eqn:Ev; [|discriminate]. cbn [bind] in *. unfold wr in *. destruct (i <? length a); [|discriminate]. cbn [bind] in *.
  apply IH; [exact H|]. intros j Hj. rewrite nth_error_upd_ne by lia. apply Heq. lia.
Qed.
(* the loop of a op= b; [pb] points into the vector of b *)
Lemma w_assign_loop (f : A -> A -> A) I E K e e' l l' n an ita itb dest : svar E e = Some l -> svar E e' = Some l' ->
  nth_error K ita = Some (Some (true, e)) -> nth_error K dest = Some (Some (true, e)) -> (exists c, nth_error K itb = Some (Some (c, e'))) ->
  for_from 0 n (fun i d => x <- rd d i ;; y <- rd l' i ;; wr d i (f x y)) l = Ok an ->
  wrun (loop n 0 (fun i _ => pbind (loadE ita i) (fun x => pbind (loadE itb i) (fun y => storeE dest i (f x y)))) tt) (mkW I E K) = Some (mkW I (upd E e (Some an)) K, tt).
Proof.
  intros He He' Ka Kd [c Kb] F. rewrite <- (svar_same E e l) at 1 by exact He. destruct (Nat.eq_dec e' e) as [->|Hne].
  - rewrite He in He'. injection He' as <-. apply self_loop in F; [|auto]. eapply w_store_loop; [exact F|]. cbn beta. intros k a a' _ G. unfold rd in G.
    destruct (nth_error a k) as [v|] eqn:Ev; [|discriminate]. cbn [bind] in G. unfold wr in G. destruct (k <? length a) eqn:Ek; inversion G; subst.
    eapply wbind_ok; [eapply w_loadE; [exact Ka|eapply svar_upd_eq; eauto|exact Ev]|]. eapply wbind_ok; [eapply w_loadE; [exact Kb|eapply svar_upd_eq; eauto|exact Ev]|].
    rewrite <- (upd_upd E e (Some a) (Some (upd a k (f v v)))). apply w_storeE; [auto|eapply svar_upd_eq; eauto|apply Nat.ltb_lt; auto].
  - eapply w_store_loop; [exact F|]. cbn beta. intros k a a' _ G. unfold rd in G.
    destruct (nth_error a k) as [v|] eqn:Ev; [|discriminate]. destruct (nth_error l' k) as [u|] eqn:Eu; [|discriminate]. cbn [bind] in G. unfold wr in G. destruct (k <? length a) eqn:Ek; inversion G; subst.
    eapply wbind_ok; [eapply w_loadE; [exact Ka|eapply svar_upd_eq; eauto|exact Ev]|]. eapply wbind_ok; [eapply w_loadE; [exact Kb|rewrite svar_upd_ne; eauto|exact Eu]|].
    rewrite <- (upd_upd E e (Some a) (Some (upd a k (f v u)))). apply w_storeE; [auto|eapply svar_upd_eq; eauto|apply Nat.ltb_lt; auto].
Qed.
Lemma w_tensor_op_assign f I E d e d' e' (x y z : tensor A) : svar E e = Some (data x) -> svar E e' = Some (data y) -> op_assign_t f x y = Ok z ->
  wrun (tensor_op_assign f (d, e) (d', e')) (mkW I E []) = Some (mkW I (upd E e (Some (data z))) [], tt) /\ dims z = dims x.
Proof.
  intros H H' F. unfold op_assign_t in F. destruct (length (data x) =? length (data y)) eqn:El; [|discriminate]. cbn [assert_ bind] in F. apply data_loop in F as [F D]. split; [|exact D].
  unfold tensor_op_assign. cbn [snd]. eapply wbind_ok; [apply w_sizeE; eauto|]. eapply wbind_ok; [apply w_sizeE; eauto|]. rewrite El. cbn [assert_ pbind].
  destruct (w_begin I E [] e _ H) as (K1 & E1 & L1 & N1 & S1). destruct (w_begin I E K1 e _ H) as (K2 & E2 & L2 & N2 & S2). destruct (w_cbegin I E K2 e' _ H') as (K3 & E3 & L3 & N3 & S3).
  eapply w_locals with (K' := K3). eapply wbind_ok; [exact E1|]. eapply wbind_ok; [exact E2|]. eapply wbind_ok; [exact E3|]. cbn [length] in *.
  eapply w_assign_loop; eauto.
Qed.
Lemma w_tensor_transform f before I E d e d' e' (x y z : tensor A) : svar I d = Some (dims x) -> svar I d' = Some (dims y) -> svar E e = Some (data x) -> svar E e' = Some (data y) ->
  op_assign_t_mixed f x y = Ok z -> e <> e' \/ 3 <= before ->
  wrun (tensor_transform_assign f before (d, e) (d', e')) (mkW I E []) = Some (mkW I (upd E e (Some (data z))) [], tt) /\ dims z = dims x.
Proof.
  intros Hd Hd' H H' F Ho. unfold op_assign_t_mixed in F. destruct (verify_dims_match (dims x) (dims y)) eqn:El; [|discriminate]. cbn [assert_ bind] in F. apply data_loop in F as [F D]. split; [|exact D].
  unfold tensor_transform_assign. cbn [fst snd]. eapply wbind_ok; [apply w_listI; eauto|]. eapply wbind_ok; [apply w_listI; eauto|]. rewrite El. cbn [assert_ pbind].
  eapply wbind_ok; [apply w_sizeE; eauto|].
  destruct (w_begins I E e _ before H []) as (K1 & ps & E1 & Lp & L1 & N1 & S1). destruct (w_cbegin I E K1 e' _ H') as (K2 & E2 & L2 & N2 & S2).
  destruct (w_begins I E e _ (3 - before) H K2) as (K3 & qs & E3 & Lq & L3 & N3 & S3).
  assert (Fa : Forall (fun p => nth_error K3 p = Some (Some (true, e))) (ps ++ qs)).
  { apply Forall_app. split; [|exact N3]. eapply Forall_impl; [|exact N1]. intros p Hp. apply S3; auto. }
  assert (Hi : exists c, nth_error K3 (length K1) = Some (Some (c, e'))).
  { exists false. destruct Ho as [Ho|Ho]; [apply S3; auto|]. replace (3 - before) with 0 in E3 by lia. cbn in E3. injection E3 as <- _. exact N2. }
  destruct (nth_error_lt (ps ++ qs) 0) as [ita Hita]; [rewrite app_length; lia|]. destruct (nth_error_lt (ps ++ qs) 2) as [dest Hdest]; [rewrite app_length; lia|].
  eapply w_locals with (K' := K3). eapply wbind_ok; [exact E1|]. eapply wbind_ok; [exact E2|]. eapply wbind_ok; [exact E3|]. rewrite (rd_ok _ _ _ Hita), (rd_ok _ _ _ Hdest). cbn [pbind].
  rewrite Forall_forall in Fa. pose proof (Fa ita (nth_error_In _ _ Hita)) as Ka. pose proof (Fa dest (nth_error_In _ _ Hdest)) as Kd. cbn beta in Ka, Kd.
  eapply w_assign_loop; eauto.
Qed.
Lemma w_tensor_op_number f c I E d e (x z : tensor A) v : svar I d = Some (dims x) -> svar E e = Some (data x) -> op_assign_n f x (Outside v) = Ok z ->
  exists m, wrun (tensor_op_number f c (d, e) v) (mkW I E []) = Some (mkW (I ++ repeat None m) (upd E e (Some (data z)) ++ repeat None m) [], tt) /\ dims z = dims x.
Proof.
  intros Hd H F. apply data_loop in F as [F D]. unfold tensor_op_number. cbn [snd].
  destruct (w_begin I E [] e _ H) as (K1 & E1 & L1 & N1 & S1). destruct (w_begin I E K1 e _ H) as (K2 & E2 & L2 & N2 & S2). destruct (w_begin I E K2 e _ H) as (K3 & E3 & L3 & N3 & S3).
  assert (EL : wrun (pbind (beginE e) (fun p => pbind (beginE e) (fun _ => pbind (beginE e) (fun q => loop (length (data x)) 0 (fun i _ => pbind (loadE p i) (fun x => storeE q i (f x v))) tt)))) (mkW I E [])
    = Some (mkW I (upd E e (Some (data z))) K3, tt)).
  { eapply wbind_ok; [exact E1|]. eapply wbind_ok; [exact E2|]. eapply wbind_ok; [exact E3|]. rewrite <- (svar_same E e (data x)) at 1 by exact H. eapply w_store_loop; [exact F|]. cbn beta.
    intros k a a' _ G. unfold rd in G. destruct (nth_error a k) as [u|] eqn:Ev; [|discriminate]. cbn [bind] in G. unfold wr in G. destruct (k <? length a) eqn:Ek; inversion G; subst.
    eapply wbind_ok; [eapply w_loadE; [apply S3; [apply S2; [exact N1|auto]|auto]|eapply svar_upd_eq; eauto|exact Ev]|].
    rewrite <- (upd_upd E e (Some a) (Some (upd a k (f u v)))). apply w_storeE; [auto|eapply svar_upd_eq; eauto|apply Nat.ltb_lt; auto]. }
  assert (H2 : svar (upd E e (Some (data z))) e = Some (data z)) by (eapply svar_upd_eq; eauto).
  destruct c.
  - exists 1. split; [|exact D]. eapply wbind_ok; [apply w_sizeE; eauto|]. eapply wbind_ok; [eapply w_locals; exact EL|]. eapply wbind_ok; [eapply w_tensor_copy; eauto|].
    erewrite w_tensor_drop; [|apply svar_end|apply svar_end]. rewrite !length_upd. f_equal. f_equal. f_equal.
    + rewrite <- (Nat.add_0_r (length I)), upd_app_r. reflexivity.
    + rewrite <- (length_upd E e (Some (data z))), <- (Nat.add_0_r (length _)), upd_app_r. reflexivity.
  - exists 0. cbn [repeat]. rewrite !app_nil_r. split; [|exact D]. eapply wbind_ok; [apply w_sizeE; eauto|]. eapply wbind_ok; [eapply w_locals; exact EL|]. reflexivity.
Qed.

(* a loop that fills a new vector *)
Lemma w_tensor_binop f junk I E d e d' e' (x y z : tensor A) : svar I d = Some (dims x) -> svar E e = Some (data x) -> svar E e' = Some (data y) -> t_op_t f junk x y = Ok z ->
  wrun (tensor_binop f junk (d, e) (d', e')) (mkW I E []) = Some (mkW (I ++ [Some (dims x)]) (E ++ [Some (data z)]) [], (length I, length E)) /\ dims z = dims x.
Proof.
  intros Hd H H' F. unfold t_op_t in F. destruct (length (data x) =? length (data y)) eqn:El; [|discriminate]. cbn [assert_ bind] in F. unfold for_ in F.
  destruct (for_from 0 (length (data x)) (fun i st => x0 <- rd (data x) i ;; y0 <- rd (data y) i ;; put (f x0 y0) st) (data (new_tensor junk (dims x)), 0)) as [[an j]| | |] eqn:EF; try discriminate.
  cbn [bind] in F. injection F as <-. cbn [dims data]. split; [|reflexivity].
  assert (F : for_from 0 (length (data x)) (fun i a => v <- (x0 <- rd (data x) i ;; y0 <- rd (data y) i ;; Ok (f x0 y0)) ;; wr a i v) (data (new_tensor junk (dims x))) = Ok an).
  { eapply for_put with (j := j). rewrite <- EF. change (for_from 0) with (@for_ (list A * nat)). apply for_ext. intros i st _. rewrite ?bind_assoc. unfold rd. destruct (nth_error (data x) i); [|reflexivity]. cbn [bind]. first [reflexivity | destruct (nth_error (data y) i); reflexivity]. }
  unfold tensor_binop. cbn [fst snd]. eapply wbind_ok; [apply w_sizeE; eauto|]. eapply wbind_ok; [apply w_sizeE; eauto|]. rewrite El. cbn [assert_ pbind].
  eapply wbind_ok; [apply w_tensor_new; eauto|]. cbn [snd]. set (I2 := I ++ [Some (dims x)]). set (E2 := E ++ [Some (alloc junk (total_size (dims x)))]).
  assert (H2 : svar E2 e = Some (data x)) by (apply svar_app; auto). assert (H2' : svar E2 e' = Some (data y)) by (apply svar_app; auto). assert (Ho : svar E2 (length E) = Some (alloc junk (total_size (dims x)))) by apply svar_end.
  destruct (w_cbegin I2 E2 [] e _ H2) as (K1 & F1 & L1 & N1 & S1). destruct (w_cbegin I2 E2 K1 e' _ H2') as (K2 & F2 & L2 & N2 & S2). destruct (w_begin I2 E2 K2 (length E) _ Ho) as (K3 & F3 & L3 & N3 & S3).
  assert (En : e <> length E) by (apply svar_lt in H; lia). assert (En' : e' <> length E) by (apply svar_lt in H'; lia).
  replace (E ++ [Some an]) with (upd E2 (length E) (Some an)) by (unfold E2; rewrite <- (Nat.add_0_r (length E)), upd_app_r; reflexivity).
  eapply wbind_ok; [|reflexivity]. eapply w_locals with (K' := K3). eapply wbind_ok; [exact F1|]. eapply wbind_ok; [exact F2|]. eapply wbind_ok; [exact F3|].
  rewrite <- (svar_same _ _ _ Ho) at 1. eapply w_store_loop; [exact F|]. cbn beta. intros k a a' _ G. unfold rd in G.
  destruct (nth_error (data x) k) as [v|] eqn:Ev; [|discriminate]. destruct (nth_error (data y) k) as [u|] eqn:Eu; [|discriminate]. cbn [bind] in G. unfold wr in G. destruct (k <? length a) eqn:Ek; inversion G; subst.
  eapply wbind_ok; [eapply w_loadE; [apply S3; [apply S2; exact N1|auto]|rewrite svar_upd_ne; eauto|exact Ev]|].
  eapply wbind_ok; [eapply w_loadE; [apply S3; [exact N2|auto]|rewrite svar_upd_ne; eauto|exact Eu]|].
  rewrite <- (upd_upd E2 (length E) (Some a) (Some (upd a k (f v u)))). apply w_storeE; [auto|eapply svar_upd_eq; eauto|apply Nat.ltb_lt; auto].
Qed.
Lemma w_tensor_unop f junk I E d e (x z : tensor A) : svar I d = Some (dims x) -> svar E e = Some (data x) -> unop f junk x = Ok z ->
  wrun (tensor_unop f junk (d, e)) (mkW I E []) = Some (mkW (I ++ [Some (dims x)]) (E ++ [Some (data z)]) [], (length I, length E)) /\ dims z = dims x.
Proof.
  intros Hd H F. unfold unop in F. unfold for_ in F.
  destruct (for_from 0 (length (data x)) (fun i st => x0 <- rd (data x) i ;; put (f x0) st) (data (new_tensor junk (dims x)), 0)) as [[an j]| | |] eqn:EF; try discriminate.
  cbn [bind] in F. injection F as <-. cbn [dims data]. split; [|reflexivity].
  assert (F : for_from 0 (length (data x)) (fun i a => v <- (x0 <- rd (data x) i ;; Ok (f x0)) ;; wr a i v) (data (new_tensor junk (dims x))) = Ok an).
  { eapply for_put with (j := j). rewrite <- EF. change (for_from 0) with (@for_ (list A * nat)). apply for_ext. intros i st _. rewrite ?bind_assoc. unfold rd. destruct (nth_error (data x) i); [|reflexivity]. cbn [bind]. first [reflexivity | destruct (nth_error (data y) i); reflexivity]. }
  unfold tensor_unop. cbn [fst snd]. eapply wbind_ok; [apply w_sizeE; eauto|].
  eapply wbind_ok; [apply w_tensor_new; eauto|]. cbn [snd]. set (I2 := I ++ [Some (dims x)]). set (E2 := E ++ [Some (alloc junk (total_size (dims x)))]).
  assert (H2 : svar E2 e = Some (data x)) by (apply svar_app; auto). assert (Ho : svar E2 (length E) = Some (alloc junk (total_size (dims x)))) by apply svar_end.
  destruct (w_cbegin I2 E2 [] e _ H2) as (K1 & F1 & L1 & N1 & S1). destruct (w_begin I2 E2 K1 (length E) _ Ho) as (K3 & F3 & L3 & N3 & S3).
  assert (En : e <> length E) by (apply svar_lt in H; lia).
  replace (E ++ [Some an]) with (upd E2 (length E) (Some an)) by (unfold E2; rewrite <- (Nat.add_0_r (length E)), upd_app_r; reflexivity).
  eapply wbind_ok; [|reflexivity]. eapply w_locals with (K' := K3). eapply wbind_ok; [exact F1|]. eapply wbind_ok; [exact F3|].
  rewrite <- (svar_same _ _ _ Ho) at 1. eapply w_store_loop; [exact F|]. cbn beta. intros k a a' _ G. unfold rd in G.
  destruct (nth_error (data x) k) as [v|] eqn:Ev; [|discriminate]. cbn [bind] in G. unfold wr in G. destruct (k <? length a) eqn:Ek; inversion G; subst.
  eapply wbind_ok; [eapply w_loadE; [apply S3; [exact N1|auto]|rewrite svar_upd_ne; eauto|exact Ev]|].
  rewrite <- (upd_upd E2 (length E) (Some a) (Some (upd a k (f v)))). apply w_storeE; [auto|eapply svar_upd_eq; eauto|apply Nat.ltb_lt; auto].
Qed.
End O.
