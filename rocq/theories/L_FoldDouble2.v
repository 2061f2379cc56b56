(* The contractions of M_Fold with any BLAS (M_FoldDouble): they compute the same
   sums of products as with exact arithmetic.  The argument runs the model of
   M_Fold on formal sums of formal products. *)
From Coq Require Import Permutation.
From Verif Require Import Base Spec S_Fold M_Tensor M_Fold L_Lin L_Tensor L_Fold S_FoldDouble M_FoldDouble.
Local Open Scope nat_scope.

(* ---- two programs that do the same ---- *)
Definition osim {S T} (R : S -> T -> Prop) (x : outcome S) (y : outcome T) : Prop :=
  match x, y with Ok s, Ok t => R s t | Abort, Abort => True | UB, UB => True | Hang, Hang => True | _, _ => False end.
Lemma osim_bind {S T S' T'} (R : S -> T -> Prop) (R' : S' -> T' -> Prop) x y f g :
  osim R x y -> (forall s t, R s t -> osim R' (f s) (g t)) -> osim R' (bind x f) (bind y g).
Proof. destruct x, y; cbn; intros H1 H2; try tauto. apply H2, H1. Qed.
Lemma osim_for {S T} (R : S -> T -> Prop) n f g s t :
  R s t -> (forall i s t, i < n -> R s t -> osim R (f i s) (g i t)) -> osim R (for_ n f s) (for_ n g t).
Proof.
  induction n as [|n IH]; intros H0 H; [exact H0|]. rewrite !for_S. eapply osim_bind; [apply IH; auto|]. intros s' t' H'. apply H; auto.
Qed.
Lemma F2_length {S T} (P : S -> T -> Prop) c e : Forall2 P c e -> length c = length e.
Proof. intros H. induction H; cbn; congruence. Qed.
Lemma osim_wr {S T} (P : S -> T -> Prop) c e q x t : Forall2 P c e -> P x t -> osim (Forall2 P) (wr c q x) (wr e q t).
Proof.
  intros H Hx. pose proof (F2_length _ _ _ H) as L. unfold wr. rewrite L. destruct (q <? length e); [|exact I]. cbn.
  clear L. revert q. induction H as [|a b c e Ha H IH]; intros q; cbn; [destruct q; constructor|]. destruct q as [|q]; cbn; constructor; auto.
Qed.
Lemma osim_rd {S T} (P : S -> T -> Prop) c e q : Forall2 P c e -> osim P (rd c q) (rd e q).
Proof. intros H. unfold rd. revert q. induction H as [|a b c e Ha H IH]; intros [|q]; cbn; auto. Qed.

Section Free.
Context {A : Type} (N : numops A) (cc : forall x, nconj N (nconj N x) = x).
Definition formal : Type := list (list A).
Definition lit (x : A) : formal := [[x]].
Definition Fnum : numops formal :=
  mkNum [] [[]] (@app (list A)) (fun l m => flat_map (fun a => map (fun b => a ++ b) m) l) (map (map (nconj N))).
Lemma Fnum_conj : conjlaws Fnum.
Proof using cc.
  split; cbn [nconj nzero nadd nmul Fnum].
  - reflexivity.
  - intros. apply map_app.
  - intros x y. induction x as [|a x IH]; [reflexivity|]. cbn [flat_map map]. rewrite map_app, IH. f_equal. rewrite !map_map. apply map_ext. intros b. apply map_app.
  - intros x. rewrite map_map. rewrite <- map_id. apply map_ext. intros l. rewrite map_map. rewrite <- map_id. apply map_ext. exact cc.
Qed.
Definition pair2 (p : A * A) : list A := [fst p; snd p].
Lemma pair2_inj l m : map pair2 l = map pair2 m -> l = m.
Proof. revert m. induction l as [|[a b] l IH]; intros [|[c d] m] H; cbn in *; try discriminate; [reflexivity|]. injection H as -> -> H. f_equal. auto. Qed.
Lemma formal_sum n (f g : nat -> A) : sum_n Fnum n (fun x => nmul Fnum (lit (f x)) (lit (g x))) = map pair2 (map (fun x => (f x, g x)) (seq 0 n)).
Proof. induction n as [|n IH]; [reflexivity|]. cbn [sum_n]. rewrite IH, seq_S, !map_app. reflexivity. Qed.
Definition conj2 (p : A * A) : A * A := (nconj N (fst p), nconj N (snd p)).

(* Out l x: x may be what the program holds when the exact value is the sum of
   the products of l *)
Context (dot : dot_fun A) (Out : list (A * A) -> A -> Prop).
Context (dot_out : forall q l, Out l (dot q l)).
Context (conj_out : forall l x, Out l x -> Out (map conj2 l) (nconj N x)).
Definition held (x : A) (t : formal) : Prop := t = [[]] \/ exists l, t = map pair2 l /\ Out l x.
Notation state := (Forall2 held).

Lemma rd_lit la q : osim (fun x t => t = lit x) (rd la q) (rd (map lit la) q).
Proof. unfold rd. rewrite nth_error_map. destruct (nth_error la q); cbn; auto. Qed.
Lemma blas_val_lit op x : blas_val Fnum op (lit x) = lit (blas_val N op x).
Proof. destruct op; reflexivity. Qed.
Lemma gemm_sim op1 op2 m n k la offA lda lb offB ldb offC ldc c e : state c e ->
  osim state (gemm_any N dot op1 op2 m n k (fun _ => rd la) offA lda (fun _ => rd lb) offB ldb offC ldc c)
    (gemm Fnum op1 op2 m n k (fun _ => rd (map lit la)) offA lda (fun _ => rd (map lit lb)) offB ldb offC ldc e).
Proof using dot_out.
  intros H. unfold gemm_any, gemm. apply osim_for; [exact H|]. intros j c' e' _ H'. apply osim_for; [exact H'|]. intros i c'' e'' _ H''.
  eapply (osim_bind (fun l t => t = map pair2 l)).
  - apply osim_for; [reflexivity|]. intros p l t _ ->. eapply osim_bind; [apply rd_lit|]. intros x tx ->. eapply osim_bind; [apply rd_lit|]. intros y ty ->. cbn [osim].
    rewrite !blas_val_lit, map_app. reflexivity.
  - intros l t ->. apply osim_wr; [exact H''|]. right. eauto.
Qed.
Lemma paths_sim do_conj la lb I J K L M c e : state c e ->
  osim state (fold_paths_with N (gemm_any N dot) do_conj (fun _ => rd la) (fun _ => rd lb) I J K L M c)
    (fold_paths Fnum do_conj (fun _ => rd (map lit la)) (fun _ => rd (map lit lb)) I J K L M e).
Proof using dot_out conj_out.
  intros H. unfold fold_paths, fold_paths_with.
  assert (G : forall op1 op2, osim state
    (c <- for_ M (fun m => for_ J (fun j => gemm_any N dot op1 op2 I K L (fun _ => rd la) (I * L * j) I (fun _ => rd lb) (K * L * m) K (I * (j + J * K * m)) (I * J))) c ;;
     if do_conj then for_ (length c) (fun i c => x <- rd c i ;; wr c i (nconj N x)) c else Ok c)
    (c <- for_ M (fun m => for_ J (fun j => gemm Fnum op1 op2 I K L (fun _ => rd (map lit la)) (I * L * j) I (fun _ => rd (map lit lb)) (K * L * m) K (I * (j + J * K * m)) (I * J))) e ;;
     if do_conj then for_ (length c) (fun i c => x <- rd c i ;; wr c i (nconj Fnum x)) c else Ok c)).
  { intros op1 op2. eapply osim_bind.
    - apply osim_for; [exact H|]. intros m c1 e1 _ H1. apply osim_for; [exact H1|]. intros j c2 e2 _ H2. apply gemm_sim, H2.
    - intros c1 e1 H1. destruct do_conj; [|exact H1]. rewrite (F2_length _ _ _ H1). apply osim_for; [exact H1|]. intros i c2 e2 _ H2.
      eapply osim_bind; [apply osim_rd, H2|]. intros x t Hx. apply osim_wr; [exact H2|]. destruct Hx as [->|(l & -> & Hl)]; [left; reflexivity|].
      right. exists (map conj2 l). split; [|apply conj_out, Hl]. cbn [nconj Fnum]. rewrite !map_map. reflexivity. }
  destruct (I =? 1); [destruct (K =? 1); [apply gemm_sim, H|destruct (M =? 1); [apply gemm_sim, H|apply G]]|].
  destruct ((J =? 1) && negb do_conj); [destruct (K =? 1); [apply gemm_sim, H|destruct (M =? 1); [apply gemm_sim, H|apply G]]|apply G].
Qed.

Definition tlit (a : tensor A) : tensor formal := mkT (dims a) (map lit (data a)).
Lemma tlit_wf a : wf a -> wf (tlit a).
Proof. unfold wf, tlit. cbn. rewrite map_length. auto. Qed.
Lemma tlit_val a ix : wf a -> dims a <> [] -> valid (dims a) ix -> val Fnum (tlit a) ix = lit (val N a ix).
Proof.
  intros W D V. destruct (elt_some a ix W D V) as (x & E). unfold val. rewrite E. rewrite elt_valid in E by auto. rewrite elt_valid by exact V.
  cbn [tlit data dims]. rewrite nth_error_map, E. reflexivity.
Qed.
Lemma junk_state junk ds : state (data (new_tensor junk ds)) (data (new_tensor (fun _ => [[]]) ds)).
Proof.
  unfold new_tensor, alloc. cbn [data]. generalize (seq 0 (total_size ds)). intros l. induction l as [|i l IH]; cbn; constructor; auto. left. reflexivity.
Qed.
Lemma state_elt c e ix l : length (data c) = length (data e) -> dims c = dims e -> state (data c) (data e) -> l <> [] ->
  elt e ix = Some (map pair2 l) -> exists x, elt c ix = Some x /\ Out l x.
Proof.
  intros HL HD H Hl. unfold elt. rewrite HD. destruct (validb (dims e) ix); [|discriminate]. generalize (lin (dims e) ix) as q. clear HL HD.
  induction H as [|x t c' e' Hx H IH]; intros [|q] E; cbn in *; try discriminate; [|apply IH, E]. injection E as ->. exists x. split; [reflexivity|].
  destruct Hx as [Hx|(m & Hx & Hm)]; [|apply pair2_inj in Hx; subst; exact Hm]. exfalso. destruct l as [|p [|]]; [auto|discriminate|discriminate].
Qed.

Lemma fold_with_ok do_conj jd junk (a b : tensor A) m n p1 l s1 p2 s2 :
  wf a -> wf b -> dims a = p1 ++ l :: s1 -> dims b = p2 ++ l :: s2 ->
  coord (length (dims a)) m (length p1) -> coord (length (dims b)) n (length p2) -> 0 < l ->
  exists c, do_fold_with N (gemm_any N dot) do_conj false false jd junk a m b n = Ok c /\ wf c /\
    dims c = scalar_dims (p1 ++ s1 ++ p2 ++ s2) /\
    forall u1 v1 u2 v2, valid p1 u1 -> valid s1 v1 -> valid p2 u2 -> valid s2 v2 ->
      exists x, elt c (scalar_ix (u1 ++ v1 ++ u2 ++ v2)) = Some x /\
        Out (pairs l (fun x => cj N do_conj (val N a (u1 ++ x :: v1))) (fun x => val N b (u2 ++ x :: v2))) x.
Proof using cc dot_out conj_out.
  intros Ha Hb Ea Eb H1 H2 Hl.
  destruct (do_fold_ok' Fnum do_conj jd (fun _ => [[]]) (tlit a) (tlit b) m n p1 l s1 p2 s2) as (e & E & We & De & He); auto using tlit_wf, Fnum_conj.
  rewrite (do_fold_gen Fnum do_conj jd (fun _ => [[]]) (tlit a) (tlit b) m n p1 l s1 p2 l s2) in E by auto.
  rewrite (do_fold_with_gen N (gemm_any N dot) do_conj jd junk a b m n p1 l s1 p2 l s2) by auto.
  replace (l =? 0) with false in * by lia. rewrite Nat.eqb_refl in *. cbn [negb] in *. cbv zeta in *. rewrite !new_tensor_len in *.
  set (D := scalar_dims (p1 ++ s1 ++ p2 ++ s2)) in *.
  assert (S : exists c, (if nelem D =? 0 then Ok (new_tensor junk D) else
     c <- fold_paths_with N (gemm_any N dot) do_conj (fun _ => rd (data a)) (fun _ => rd (data b)) (prod p1) (prod s1) (prod p2) l (prod s2) (data (new_tensor junk D)) ;; Ok (mkT D c)) = Ok c /\
     dims c = D /\ state (data c) (data e)).
  { destruct (nelem D =? 0).
    - injection E as <-. eexists. split; [reflexivity|]. split; [reflexivity|apply junk_state].
    - pose proof (paths_sim do_conj (data a) (data b) (prod p1) (prod s1) (prod p2) l (prod s2) _ _ (junk_state junk D)) as S.
      cbn [tlit data] in E. destruct (fold_paths Fnum _ _ _ _ _ _ _ _ _) as [e'| | |]; cbn [bind] in E; try discriminate. injection E as <-.
      destruct (fold_paths_with N _ _ _ _ _ _ _ _ _ _) as [c'| | |]; cbn [osim] in S; try contradiction. eexists. split; [reflexivity|]. split; [reflexivity|exact S]. }
  destruct S as (c & Ec & Dc & Sc). exists c. split; [exact Ec|].
  assert (Lc : length (data c) = length (data e)) by (eapply F2_length; exact Sc).
  split; [unfold wf in *; rewrite Lc, We, De, Dc; reflexivity|]. split; [exact Dc|].
  intros u1 v1 u2 v2 V1 V2 V3 V4. apply (state_elt c e); auto; [congruence| |].
  - intros X. apply (f_equal (@length _)) in X. unfold pairs in X. rewrite map_length, seq_length in X. cbn in X. lia.
  - rewrite He by auto. f_equal. unfold pairs. rewrite <- formal_sum. apply sum_ext. intros x Hx.
    rewrite !tlit_val; auto.
    + destruct do_conj; reflexivity.
    + rewrite Eb; destruct p2; discriminate.
    + rewrite Eb. apply valid_app; [apply (valid_length _ _ V3)|]. split; auto. apply valid_cons; auto.
    + rewrite Ea; destruct p1; discriminate.
    + rewrite Ea. apply valid_app; [apply (valid_length _ _ V1)|]. split; auto. apply valid_cons; auto.
Qed.
Lemma foldin_with_ok jd junk (a b : tensor A) m n p1 l s1 p2 s2 :
  wf a -> wf b -> dims a = p1 ++ l :: s1 -> dims b = p2 ++ l :: s2 ->
  coord (length (dims a)) m (length p1) -> coord (length (dims b)) n (length p2) -> 0 < l -> p2 ++ p1 ++ s1 ++ s2 <> [] ->
  exists c, foldin_any N dot jd junk a m b n = Ok c /\ wf c /\
    dims c = p2 ++ (p1 ++ s1) ++ s2 /\
    forall u1 v1 u2 v2, valid p1 u1 -> valid s1 v1 -> valid p2 u2 -> valid s2 v2 ->
      exists x, elt c (u2 ++ (u1 ++ v1) ++ v2) = Some x /\
        Out (pairs l (fun x => val N b (u2 ++ x :: v2)) (fun x => val N a (u1 ++ x :: v1))) x.
Proof using dot_out.
  intros Ha Hb Ea Eb H1 H2 Hl Hne.
  destruct (foldin_ok' Fnum jd (fun _ => [[]]) (tlit a) (tlit b) m n p1 l s1 p2 s2) as (e & E & We & De & He); auto using tlit_wf.
  rewrite (foldin_gen Fnum jd (fun _ => [[]]) (tlit a) (tlit b) m n p1 l s1 p2 l s2) in E by auto.
  unfold foldin_any. rewrite (foldin_with_gen (gemm_any N dot) jd junk a b m n p1 l s1 p2 l s2) by auto.
  rewrite Nat.eqb_refl in *. cbn [negb] in *. cbv zeta in *.
  assert (ED : p2 ++ p1 ++ s1 ++ s2 = dims e) by (rewrite De, <- !app_assoc; reflexivity).
  remember (p2 ++ p1 ++ s1 ++ s2) as D eqn:EDD. destruct D as [|d0 D0]; [congruence|]. remember (d0 :: D0) as D eqn:EQ. clear EQ d0 D0 Hne.
  rewrite !new_tensor_len in *.
  match goal with |- exists c, ?X = Ok c /\ _ => assert (S : exists c, X = Ok c /\ dims c = D /\ state (data c) (data e)) end.
  { destruct (nelem D =? 0).
    - injection E as <-. eexists. split; [reflexivity|]. split; [reflexivity|apply junk_state].
    - match type of E with (bind ?Y _) = _ => match goal with |- exists c, bind ?X _ = _ /\ _ => assert (S : osim state X Y) end end.
      { apply osim_for; [apply junk_state|]. intros k c1 e1 _ H3. apply osim_for; [exact H3|]. intros j c2 e2 _ H4. cbn [tlit data]. apply gemm_sim, H4. }
      match type of S with osim _ ?X ?Y => destruct Y as [e'| | |]; cbn [bind] in E; try discriminate; injection E as <-;
        destruct X as [c'| | |]; cbn [osim] in S; try contradiction end. eexists. split; [reflexivity|]. split; [reflexivity|exact S]. }
  destruct S as (c & Ec & Dc & Sc). exists c. split; [exact Ec|].
  assert (Lc : length (data c) = length (data e)) by (eapply F2_length; exact Sc).
  split; [unfold wf in *; rewrite Lc, We; congruence|]. split; [congruence|].
  intros u1 v1 u2 v2 V1 V2 V3 V4. apply (state_elt c e); auto; [congruence| |].
  - intros X. apply (f_equal (@length _)) in X. unfold pairs in X. rewrite map_length, seq_length in X. cbn in X. lia.
  - rewrite He by auto. f_equal. unfold pairs. rewrite <- formal_sum. apply sum_ext. intros x Hx.
    rewrite !tlit_val; auto.
    + rewrite Ea; destruct p1; discriminate.
    + rewrite Ea. apply valid_app; [apply (valid_length _ _ V1)|]. split; auto. apply valid_cons; auto.
    + rewrite Eb; destruct p2; discriminate.
    + rewrite Eb. apply valid_app; [apply (valid_length _ _ V3)|]. split; auto. apply valid_cons; auto.
Qed.
End Free.
