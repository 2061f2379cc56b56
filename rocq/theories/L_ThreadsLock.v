(* Lemmas for C77 with a lock. *)
From Verif Require Import Base M_RefCount S_RefCount L_RefCount M_Threads M_ThreadsLock S_Threads.

(* ---- counting the variables that refer to an address ---- *)
Definition one (x a : addr) : nat := if addr_eqb x a then 1 else 0.
Definition cnt (k : nat) (vs : tvars) (a : addr) : nat := count_occ adec (skipn k vs) (Some a).

Lemma addr_eqb_spec x a : reflect (x = a) (addr_eqb x a).
Proof.
  destruct x as [x1 x2], a as [a1 a2]. unfold addr_eqb. cbn [fst snd].
  destruct (Nat.eqb_spec x1 a1), (Nat.eqb_spec x2 a2); constructor; congruence.
Qed.
Lemma one_same a : one a a = 1.
Proof. unfold one. destruct (addr_eqb_spec a a); congruence. Qed.
Lemma one_diff x a : x <> a -> one x a = 0.
Proof. unfold one. destruct (addr_eqb_spec x a); congruence. Qed.

Definition ind (o : option addr) (a : addr) : nat := match o with Some x => one a x | None => 0 end.
Lemma count_ind (o : option addr) l a : count_occ adec (o :: l) (Some a) = ind o a + count_occ adec l (Some a).
Proof.
  cbn [count_occ ind]. destruct (adec o (Some a)) as [->|N]; cbn [ind].
  - rewrite one_same. reflexivity.
  - destruct o as [x|]; cbn [ind]; [rewrite one_diff by congruence|]; reflexivity.
Qed.
Lemma count_upd l h o o' a : nth_error l h = Some o -> count_occ adec (upd l h o') (Some a) + ind o a = count_occ adec l (Some a) + ind o' a.
Proof.
  revert h. induction l as [|y l IH]; intros [|h]; cbn [nth_error upd]; intros E; try discriminate.
  - injection E as ->. rewrite !count_ind. lia.
  - rewrite !count_ind. specialize (IH h E). lia.
Qed.
Lemma skipn_upd {X} (l : list X) k h x : k <= h -> skipn k (upd l h x) = upd (skipn k l) (h - k) x.
Proof.
  revert k h. induction l as [|y l IH]; intros k h H.
  - destruct k, h; cbn [skipn upd]; try reflexivity; destruct (_ - _); reflexivity.
  - destruct k as [|k]; [rewrite Nat.sub_0_r; reflexivity|]. destruct h as [|h]; [lia|]. cbn [skipn upd Nat.sub]. apply IH. lia.
Qed.
Lemma nth_skipn {X} (l : list X) k h : k <= h -> nth_error (skipn k l) (h - k) = nth_error l h.
Proof.
  revert k h. induction l as [|y l IH]; intros k h H.
  - destruct k; cbn [skipn]; destruct (h - _), h; reflexivity.
  - destruct k as [|k]; [rewrite Nat.sub_0_r; reflexivity|]. destruct h as [|h]; [lia|]. cbn [skipn nth_error Nat.sub]. apply IH. lia.
Qed.
Lemma skipn_cons {X} (l : list X) j v : nth_error l j = Some v -> skipn j l = v :: skipn (S j) l.
Proof.
  revert j. induction l as [|y l IH]; intros [|j]; cbn [nth_error skipn]; intros E; try discriminate; [injection E as ->; reflexivity|].
  rewrite (IH j E). reflexivity.
Qed.
Lemma cnt_upd k vs h o o' a : k <= h -> nth_error vs h = Some o -> cnt k (upd vs h o') a + ind o a = cnt k vs a + ind o' a.
Proof. intros H E. unfold cnt. rewrite skipn_upd by auto. apply count_upd. rewrite nth_skipn; auto. Qed.
Lemma cnt_app k vs o a : k <= length vs -> cnt k (vs ++ [o]) a = cnt k vs a + ind o a.
Proof.
  intros H. unfold cnt. rewrite skipn_app. replace (k - length vs) with 0 by lia. cbn [skipn]. rewrite count_occ_app, count_ind. cbn [count_occ]. lia.
Qed.
Lemma cnt_in k vs h a : k <= h -> nth_error vs h = Some (Some a) -> 1 <= cnt k vs a.
Proof.
  intros H E. pose proof (cnt_upd k vs h (Some a) None a H E) as C. cbn [ind] in C. rewrite one_same in C. lia.
Qed.
(* another variable that refers to a *)
Lemma cnt_other k vs h h' a o : k <= h' -> h' <> h -> nth_error vs h' = Some (Some a) -> 1 <= cnt k (upd vs h o) a.
Proof. intros H D E. apply (cnt_in k _ h'); auto. rewrite nth_error_upd_ne by auto. exact E. Qed.

Section Memory.
Context {A : Type}.
Implicit Types m : mem A.

Definition val m (a : addr) : option (list A) := match block_at m a with Ok b => Some (bdata b) | _ => None end.
Definition base (a : addr) : nat := if fst a =? 0 then 1 else 0.

(* the counters are right, and what is referred to is there *)
Definition good m (T : addr -> nat) : Prop :=
  (forall a b, block_at m a = Ok b -> brefs b = Z.of_nat (T a + base a) /\ 0 < T a + base a) /\
  (forall a, 0 < T a -> exists b, block_at m a = Ok b).

Lemma good_ext m T T' : (forall a, T a = T' a) -> good m T -> good m T'.
Proof.
  intros E [G1 G2]. split.
  - intros a b H. rewrite <- E. auto.
  - intros a H. apply G2. rewrite E. auto.
Qed.

Lemma set_same m a b o : block_at m a = Ok b -> block_at (set_block m a o) a = match o with Some b' => Ok b' | None => UB end.
Proof.
  unfold block_at, set_block. destruct (nth_error m (fst a)) as [ar|] eqn:E; [|discriminate].
  destruct (nth_error ar (snd a)) as [[b'|]|] eqn:E2; try discriminate. intros _.
  rewrite nth_error_upd_eq by (apply nth_error_Some; congruence). rewrite nth_error_upd_eq by (apply nth_error_Some; congruence).
  destruct o; reflexivity.
Qed.
Lemma set_other m a a' o : a' <> a -> block_at (set_block m a o) a' = block_at m a'.
Proof.
  intros D. unfold block_at, set_block. destruct (nth_error m (fst a)) as [ar|] eqn:E; [|reflexivity].
  destruct (Nat.eq_dec (fst a') (fst a)) as [F|F].
  - rewrite F, nth_error_upd_eq by (apply nth_error_Some; congruence). rewrite E.
    rewrite nth_error_upd_ne; [reflexivity|]. intros H. apply D. destruct a, a'. cbn in *. congruence.
  - rewrite nth_error_upd_ne by auto. reflexivity.
Qed.
Lemma set_len m a o : length (set_block m a o) = length m.
Proof. unfold set_block. destruct (nth_error m (fst a)); [apply length_upd|reflexivity]. Qed.

Context (i : nat).
(* the rest of the program, without interruption *)
Fixpoint complete {X} m (p : prog A X) : outcome (mem A * X) :=
  match p with
  | Ret x => Ok (m, x)
  | Wrong => UB
  | LoadRefs a k => b <- block_at m a ;; complete m (k (brefs b))
  | StoreRefs a r k => b <- block_at m a ;; complete (set_block m a (Some (mkB (bdata b) r))) k
  | LoadSize a k => b <- block_at m a ;; complete m (k (length (bdata b)))
  | LoadElt a j k => b <- block_at m a ;; v <- rd (bdata b) j ;; complete m (k v)
  | StoreElt a j v k => b <- block_at m a ;; l <- wr (bdata b) j v ;; complete (set_block m a (Some (mkB l (brefs b)))) k
  | Alloc l k =>
    match nth_error m (S i) with
    | Some ar => complete (upd m (S i) (ar ++ [Some (mkB l 1)])) (k (S i, length ar))
    | None => UB
    end
  | Delete a k => b <- block_at m a ;; complete (set_block m a None) k
  end.

Lemma complete_access {X} m (p : prog A X) m' x : complete m p = Ok (m', x) -> (forall y, p <> Ret y) ->
  exists m1 p1, access i m p = Ok (m1, p1) /\ complete m1 p1 = Ok (m', x).
Proof.
  intros H N. destruct p; cbn [complete access] in *; try discriminate; try (elim (N x0); reflexivity);
    try (destruct (block_at m a) as [b| | |]; try discriminate; cbn [bind] in * ).
  - eauto.
  - eauto.
  - eauto.
  - destruct (rd (bdata b) i0) as [v| | |]; try discriminate. cbn [bind] in *. eauto.
  - destruct (wr (bdata b) i0 v) as [v'| | |]; try discriminate. cbn [bind] in *. eauto.
  - destruct (nth_error m (S i)); try discriminate. eauto.
  - eauto.
Qed.

Lemma val_block m a l : val m a = Some l -> exists b, block_at m a = Ok b /\ bdata b = l.
Proof. unfold val. destruct (block_at m a) as [b| | |]; try discriminate. intros H. injection H as <-. eauto. Qed.

Lemma load_ok m T a l : good m T -> val m a = Some l ->
  forall X (k : Z -> prog A X), complete m (LoadRefs a k) = complete m (k (Z.of_nat (T a + base a))).
Proof.
  intros [G _] V X k. destruct (val_block _ _ _ V) as (b & E & _). cbn [complete]. rewrite E. cbn [bind]. destruct (G a b E) as [-> _]. reflexivity.
Qed.

Lemma ref_ok m T a l : good m T -> val m a = Some l -> exists m1,
  (forall X (k : prog A X), complete m (reference_ a k) = complete m1 k) /\
  good m1 (fun x => T x + one x a) /\ (forall a', val m1 a' = val m a') /\ length m1 = length m.
Proof.
  intros [G1 G2] V. destruct (val_block _ _ _ V) as (b & E & Eb). destruct (G1 a b E) as [R P].
  exists (set_block m a (Some (mkB (bdata b) (brefs b + 1)))). split; [|split; [|split]].
  - intros X k. unfold reference_. cbn [complete]. rewrite E. cbn [bind]. reflexivity.
  - split.
    + intros a' b' H. destruct (addr_eqb_spec a' a) as [->|D].
      * rewrite (set_same m a b) in H by auto. injection H as <-. cbn [brefs]. rewrite one_same. lia.
      * rewrite set_other in H by auto. rewrite one_diff by auto. rewrite Nat.add_0_r. auto.
    + intros a' H. destruct (addr_eqb_spec a' a) as [->|D].
      * rewrite (set_same m a b) by auto. eauto.
      * rewrite set_other by auto. rewrite one_diff in H by auto. apply G2. lia.
  - intros a'. unfold val. destruct (addr_eqb_spec a' a) as [->|D].
    + rewrite (set_same m a b) by auto. rewrite E. reflexivity.
    + rewrite set_other by auto. reflexivity.
  - apply set_len.
Qed.

Lemma deref_ok m T a : good m (fun x => T x + one x a) -> exists m1,
  (forall X (k : prog A X), complete m (dereference_ a k) = complete m1 k) /\
  good m1 T /\ (forall a', 0 < T a' \/ fst a' = 0 -> val m1 a' = val m a') /\ length m1 = length m.
Proof.
  intros [G1 G2]. destruct (G2 a) as [b E]; [rewrite one_same; lia|]. destruct (G1 a b E) as [R P]. rewrite one_same in R, P.
  set (m0 := set_block m a (Some (mkB (bdata b) (brefs b - 1)))).
  assert (E0 : block_at m0 a = Ok (mkB (bdata b) (brefs b - 1))) by (unfold m0; rewrite (set_same m a b) by auto; reflexivity).
  exists (if (brefs b - 1 <=? 0)%Z then set_block m0 a None else m0). split; [|split; [|split]].
  - intros X k. unfold dereference_. cbn [complete]. rewrite E. cbn [bind complete]. fold m0.
    rewrite ?E. cbn [bind]. destruct (brefs b - 1 <=? 0)%Z; cbn [complete]; fold m0; [rewrite E0; reflexivity|reflexivity].
  - destruct (Z.leb_spec (brefs b - 1) 0).
    + assert (Ta : T a = 0 /\ base a = 0) by lia. destruct Ta as [Ta Ba]. split.
      * intros a' b' H'. destruct (addr_eqb_spec a' a) as [->|D].
        -- rewrite (set_same m0 a _ None E0) in H'. discriminate.
        -- rewrite set_other in H' by auto. unfold m0 in H'. rewrite set_other in H' by auto. specialize (G1 a' b' H'). rewrite one_diff in G1 by auto. rewrite Nat.add_0_r in G1. auto.
      * intros a' H'. destruct (addr_eqb_spec a' a) as [->|D]; [lia|]. rewrite set_other by auto. unfold m0. rewrite set_other by auto. apply G2. lia.
    + split.
      * intros a' b' H'. destruct (addr_eqb_spec a' a) as [->|D].
        -- rewrite E0 in H'. injection H' as <-. cbn [brefs]. lia.
        -- unfold m0 in H'. rewrite set_other in H' by auto. specialize (G1 a' b' H'). rewrite one_diff in G1 by auto. rewrite Nat.add_0_r in G1. auto.
      * intros a' H'. destruct (addr_eqb_spec a' a) as [->|D]; [eauto|]. unfold m0. rewrite set_other by auto. apply G2. lia.
  - intros a' Ha. assert (V0 : val m0 a' = val m a').
    { unfold val. destruct (addr_eqb_spec a' a) as [->|D]; [rewrite E0, E; reflexivity|]. unfold m0. rewrite set_other by auto. reflexivity. }
    destruct (Z.leb_spec (brefs b - 1) 0); [|exact V0].
    rewrite <- V0. unfold val. rewrite set_other; [reflexivity|]. intros ->. unfold base in R. destruct (Nat.eqb_spec (fst a) 0); lia.
  - destruct (brefs b - 1 <=? 0)%Z; unfold m0; rewrite ?set_len; reflexivity.
Qed.

Lemma alloc_ok m T l : good m T -> S i < length m -> exists m1 a,
  (forall X (k : addr -> prog A X), complete m (Alloc l k) = complete m1 (k a)) /\
  good m1 (fun x => T x + one x a) /\ val m a = None /\ val m1 a = Some l /\
  (forall a', val m a' <> None -> val m1 a' = val m a') /\ length m1 = length m.
Proof.
  intros [G1 G2] L. destruct (nth_error m (S i)) as [ar|] eqn:E; [|apply nth_error_None in E; lia].
  exists (upd m (S i) (ar ++ [Some (mkB l 1)])), (S i, length ar).
  assert (N : block_at m (S i, length ar) = UB).
  { unfold block_at. cbn [fst snd]. rewrite E. replace (nth_error ar (length ar)) with (@None (option (block A))); [reflexivity|symmetry; apply nth_error_None; lia]. }
  assert (Y : block_at (upd m (S i) (ar ++ [Some (mkB l 1)])) (S i, length ar) = Ok (mkB l 1)).
  { unfold block_at. cbn [fst snd]. rewrite nth_error_upd_eq by auto. rewrite nth_error_app2, Nat.sub_diag by lia. reflexivity. }
  assert (O : forall a', a' <> (S i, length ar) -> block_at (upd m (S i) (ar ++ [Some (mkB l 1)])) a' = block_at m a').
  { intros [x y] D. unfold block_at. cbn [fst snd]. destruct (Nat.eq_dec x (S i)) as [->|F].
    - rewrite nth_error_upd_eq, E by auto. destruct (Nat.lt_trichotomy y (length ar)) as [H|[H|H]].
      + rewrite nth_error_app1 by auto. reflexivity.
      + congruence.
      + replace (nth_error ar y) with (@None (option (block A))) by (symmetry; apply nth_error_None; lia).
        replace (nth_error (ar ++ _) y) with (@None (option (block A))); [reflexivity|]. symmetry. apply nth_error_None. rewrite app_length. cbn. lia.
    - rewrite nth_error_upd_ne by auto. reflexivity. }
  assert (T0 : T (S i, length ar) = 0).
  { destruct (T (S i, length ar)) eqn:Q; [reflexivity|]. destruct (G2 (S i, length ar)) as [b B]; [lia|]. congruence. }
  split; [|split; [|split; [|split; [|split]]]].
  - intros X k. cbn [complete]. rewrite E. reflexivity.
  - split.
    + intros a' b' H. destruct (addr_eqb_spec a' (S i, length ar)) as [->|D].
      * rewrite Y in H. injection H as <-. rewrite one_same, T0. unfold base. cbn. lia.
      * rewrite O in H by auto. rewrite one_diff, Nat.add_0_r by auto. auto.
    + intros a' H. destruct (addr_eqb_spec a' (S i, length ar)) as [->|D]; [eauto|]. rewrite O by auto. rewrite one_diff in H by auto. apply G2. lia.
  - unfold val. rewrite N. reflexivity.
  - unfold val. rewrite Y. reflexivity.
  - intros a' H. unfold val in *. rewrite O; [reflexivity|]. intros ->. rewrite N in H. congruence.
  - apply length_upd.
Qed.

Lemma store_ok m T a l j v : good m T -> val m a = Some l -> j < length l -> exists m1,
  (forall X (k : prog A X), complete m (StoreElt a j v k) = complete m1 k) /\
  good m1 T /\ val m1 a = Some (upd l j v) /\ (forall a', a' <> a -> val m1 a' = val m a') /\ length m1 = length m.
Proof.
  intros [G1 G2] V L. destruct (val_block _ _ _ V) as (b & E & <-).
  exists (set_block m a (Some (mkB (upd (bdata b) j v) (brefs b)))). split; [|split; [|split; [|split]]].
  - intros X k. cbn [complete]. rewrite E. cbn [bind]. rewrite wr_ok by auto. reflexivity.
  - split.
    + intros a' b' H. destruct (addr_eqb_spec a' a) as [->|D].
      * rewrite (set_same m a b) in H by auto. injection H as <-. cbn [brefs]. auto.
      * rewrite set_other in H by auto. auto.
    + intros a' H. destruct (addr_eqb_spec a' a) as [->|D]; [rewrite (set_same m a b) by auto; eauto|]. rewrite set_other by auto. auto.
  - unfold val. rewrite (set_same m a b) by auto. reflexivity.
  - intros a' D. unfold val. rewrite set_other by auto. reflexivity.
  - apply set_len.
Qed.

Lemma copy_ok m a l : val m a = Some l -> forall X (k : list A -> prog A X) n j acc, j + n <= length l ->
  complete m (copy_elts a n j acc k) = complete m (k (acc ++ firstn n (skipn j l))).
Proof.
  intros V X k. destruct (val_block _ _ _ V) as (b & E & Eb). induction n as [|n IH]; intros j acc H; cbn [copy_elts complete].
  - cbn [firstn]. rewrite app_nil_r. reflexivity.
  - rewrite E. cbn [bind]. rewrite Eb. destruct (nth_error l j) as [v|] eqn:N; [|apply nth_error_None in N; lia].
    unfold rd. rewrite N. cbn [bind]. rewrite IH by lia. f_equal. f_equal. rewrite <- app_assoc. f_equal.
    rewrite (skipn_cons l j v N). reflexivity.
Qed.
Lemma clone_ok m a l : val m a = Some l -> forall X (k : addr -> prog A X), complete m (clone_ a k) = complete m (Alloc l k).
Proof.
  intros V X k. unfold clone_. destruct (val_block _ _ _ V) as (b & E & Eb).
  transitivity (complete m (copy_elts a (length l) 0 [] (fun l => Alloc l k))); [cbn [complete]; rewrite E; cbn [bind]; rewrite Eb; reflexivity|].
  rewrite (copy_ok m a l V) by lia. cbn [app skipn]. rewrite firstn_all. reflexivity.
Qed.
End Memory.

(* ---- one operation of thread i, without interruption ---- *)
Section Operation.
Context {A : Type} (i k : nat) (T0 : addr -> nat).
Implicit Types m : mem A.

Definition agree m (vs : tvars) (s : sstate A) : Prop :=
  length vs = length s /\
  forall h, match nth_error vs h with
            | Some (Some a) => exists l, val m a = Some l /\ nth_error s h = Some (Some l)
            | Some None => nth_error s h = Some None
            | None => True
            end.
Definition vars_ok (vs : tvars) : Prop :=
  k <= length vs /\ forall h a, h < k -> nth_error vs h = Some (Some a) -> fst a = 0.
Definition T (vs : tvars) (a : addr) : nat := T0 a + cnt k vs a.

Lemma agree_var m vs s h l : agree m vs s -> svar s h = Some l ->
  exists a, nth_error vs h = Some (Some a) /\ val m a = Some l /\ h < length vs.
Proof.
  intros [L H] E. unfold svar in E. destruct (nth_error s h) as [[l'|]|] eqn:N; try discriminate. injection E as ->.
  assert (B : h < length vs) by (rewrite L; apply nth_error_Some; congruence).
  specialize (H h). destruct (nth_error vs h) as [[a|]|] eqn:V.
  - destruct H as (l' & V1 & N1). rewrite N in N1. injection N1 as <-. eauto.
  - congruence.
  - apply nth_error_None in V. lia.
Qed.
Lemma agree_app m m' vs s a l : agree m vs s -> (forall h a, nth_error vs h = Some (Some a) -> val m' a = val m a) ->
  val m' a = Some l -> agree m' (vs ++ [Some a]) (s ++ [Some l]).
Proof.
  intros [L H] F V. split; [rewrite !app_length; cbn; lia|]. intros h.
  destruct (Nat.lt_trichotomy h (length vs)) as [B|[->|B]].
  - rewrite !nth_error_app1 by lia. specialize (H h). specialize (F h). destruct (nth_error vs h) as [[a'|]|]; auto.
    rewrite (F a' eq_refl). exact H.
  - rewrite nth_error_app2, Nat.sub_diag by lia. cbn [nth_error]. exists l. split; [exact V|].
    rewrite L, nth_error_app2, Nat.sub_diag by lia. reflexivity.
  - replace (nth_error (vs ++ [Some a]) h) with (@None (option addr)); [exact I|]. symmetry. apply nth_error_None. rewrite app_length. cbn. lia.
Qed.
Lemma agree_upd m m' vs s h o ol : agree m vs s -> h < length vs ->
  (forall h' a, h' <> h -> nth_error vs h' = Some (Some a) -> val m' a = val m a) ->
  match o, ol with Some a, Some l => val m' a = Some l | None, None => True | _, _ => False end ->
  agree m' (upd vs h o) (upd s h ol).
Proof.
  intros [L H] B F V. split; [rewrite !length_upd; auto|]. intros h'. destruct (Nat.eq_dec h' h) as [->|D].
  - rewrite !nth_error_upd_eq by lia. destruct o, ol; try contradiction; eauto.
  - rewrite !nth_error_upd_ne by auto. specialize (H h'). specialize (F h'). destruct (nth_error vs h') as [[a'|]|]; auto.
    rewrite (F a' D eq_refl). exact H.
Qed.
Lemma vars_app vs o : vars_ok vs -> vars_ok (vs ++ [o]).
Proof.
  intros [L H]. split; [rewrite app_length; lia|]. intros h a B. rewrite nth_error_app1 by lia. apply H. exact B.
Qed.
Lemma vars_upd vs h o : vars_ok vs -> k <= h -> vars_ok (upd vs h o).
Proof.
  intros [L H] B. split; [rewrite length_upd; lia|]. intros h' a B'. rewrite nth_error_upd_ne by lia. apply H. exact B'.
Qed.

(* a variable other than h still refers to what it refers to when h is gone *)
Lemma still vs h h' a : vars_ok vs -> h' <> h -> nth_error vs h' = Some (Some a) -> 0 < T (upd vs h None) a \/ fst a = 0.
Proof.
  intros [_ V] D E. destruct (Nat.lt_ge_cases h' k) as [B|B]; [right; exact (V h' a B E)|].
  left. unfold T. pose proof (cnt_other k vs h h' a None B D E). lia.
Qed.
Lemma T_upd vs h a o x : k <= h -> nth_error vs h = Some (Some a) -> T (upd vs h o) x + one x a = T vs x + ind o x.
Proof. intros B E. unfold T. pose proof (cnt_upd k vs h (Some a) o x B E) as C. cbn [ind] in C. lia. Qed.
Lemma T_none vs h a x : k <= h -> nth_error vs h = Some (Some a) -> T vs x = T (upd vs h None) x + one x a.
Proof. intros B E. pose proof (T_upd vs h a None x B E) as C. cbn [ind] in C. lia. Qed.
Lemma T_some vs h a b x : k <= h -> nth_error vs h = Some (Some a) -> T (upd vs h (Some b)) x = T (upd vs h None) x + one x b.
Proof. intros B E. pose proof (T_upd vs h a None x B E) as C. pose proof (T_upd vs h a (Some b) x B E) as C'. cbn [ind] in C, C'. lia. Qed.
Lemma T_app vs a x : vars_ok vs -> T (vs ++ [Some a]) x = T vs x + one x a.
Proof. intros [L _]. unfold T. rewrite cnt_app by auto. cbn [ind]. lia. Qed.

(* what other threads refer to *)
Definition frame m m' : Prop := forall a, 0 < T0 a \/ fst a = 0 -> val m a <> None -> val m' a = val m a.

Lemma op_ok m vs s o s' x : good m (T vs) -> agree m vs s -> vars_ok vs -> S i < length m -> leaves k o -> sstep s o = Some (s', x) ->
  exists m' vs', complete i m (op_prog vs o) = Ok (m', (vs', x)) /\ good m' (T vs') /\ agree m' vs' s' /\ vars_ok vs' /\
    frame m m' /\ length m' = length m.
Proof.
  intros G Ag Vo Li Lv St.
  assert (Vn : forall h a, nth_error vs h = Some (Some a) -> val m a <> None).
  { intros h a E. destruct Ag as [_ H]. specialize (H h). rewrite E in H. destruct H as (l & -> & _). discriminate. }
  assert (New : forall l, exists m' vs', complete i m (Alloc l (fun a => Ret (vs ++ [Some a], @ONone A))) = Ok (m', (vs', ONone)) /\ good m' (T vs') /\ agree m' vs' (s ++ [Some l]) /\ vars_ok vs' /\
    frame m m' /\ length m' = length m).
  { intros l. destruct (alloc_ok i m (T vs) l G Li) as (m1 & a & E & G1 & Nv & V & F & L1). exists m1, (vs ++ [Some a]). rewrite E.
    split; [reflexivity|]. split; [|split; [|split; [|split]]].
    - eapply good_ext; [|exact G1]. intros x0. symmetry. apply T_app. auto.
    - eapply agree_app; eauto.
    - apply vars_app; auto.
    - intros a' _ H. auto.
    - auto. }
  destruct o as [l| |? ?|h|h g|h j v|h j|h|h l|h|? ? ?]; cbn [sstep op_prog leaves] in *; try contradiction.
  - injection St as <- <-. apply New.
  - injection St as <- <-. apply New.
  - (* OCopy *)
    destruct (svar s h) as [l|] eqn:Sh; [|discriminate]. injection St as <- <-.
    destruct (agree_var m vs s h l Ag Sh) as (a & Vh & Va & B). unfold with_var. rewrite Vh.
    destruct (ref_ok i m (T vs) a l G Va) as (m1 & E & G1 & F & L1). exists m1, (vs ++ [Some a]). rewrite E.
    split; [reflexivity|]. split; [|split; [|split; [|split]]].
    + eapply good_ext; [|exact G1]. intros x0. symmetry. apply T_app. auto.
    + eapply agree_app; eauto. rewrite F. auto.
    + apply vars_app; auto.
    + intros a' _ H. auto.
    + auto.
  - (* OAssign *)
    destruct (svar s h) as [l0|] eqn:Sh; [|discriminate]. destruct (svar s g) as [l|] eqn:Sg; [|discriminate]. injection St as <- <-.
    destruct (agree_var m vs s h l0 Ag Sh) as (a & Vh & Va & B). destruct (agree_var m vs s g l Ag Sg) as (b & Vg & Vb & B').
    unfold with_var. rewrite Vh, Vg. destruct (addr_eqb_spec b a) as [->|D].
    + exists m, vs. split; [reflexivity|]. split; [auto|]. split; [|split; [auto|split; [intros ? ? ?; reflexivity|reflexivity]]].
      replace (upd s h (Some l)) with s; [auto|]. symmetry. apply upd_same. unfold svar in Sh. destruct (nth_error s h) as [[l1|]|]; congruence.
    + assert (Dg : g <> h) by congruence.
      destruct (deref_ok i m (T (upd vs h None)) a) as (m1 & E1 & G1 & F1 & L1).
      { eapply good_ext; [|exact G]. intros x. apply (T_none vs h a); auto. }
      assert (Vb1 : val m1 b = Some l) by (rewrite F1; [auto|apply (still vs h g); auto]).
      destruct (ref_ok i m1 (T (upd vs h None)) b l G1 Vb1) as (m2 & E2 & G2 & F2 & L2).
      exists m2, (upd vs h (Some b)). rewrite E1, E2. split; [reflexivity|]. split; [|split; [|split; [|split]]].
      * eapply good_ext; [|exact G2]. intros x. symmetry. apply (T_some vs h a); auto.
      * eapply agree_upd; eauto; [|rewrite F2; auto]. intros h' a' D' E'. rewrite F2. apply F1. apply (still vs h h'); auto.
      * apply vars_upd; auto.
      * intros a' P _. rewrite F2. apply F1. unfold T. destruct P; [left; lia|auto].
      * lia.
  - (* OWrite *)
    destruct (svar s h) as [l|] eqn:Sh; [|discriminate]. destruct (Nat.ltb_spec j (length l)) as [Hj|]; [|discriminate]. injection St as <- <-.
    destruct (agree_var m vs s h l Ag Sh) as (a & Vh & Va & B). unfold with_var. rewrite Vh.
    rewrite (load_ok i m (T vs) a l G Va). destruct (Z.ltb_spec 1 (Z.of_nat (T vs a + base a))) as [R|R].
    + rewrite (clone_ok i m a l Va).
      destruct (alloc_ok i m (T vs) l G Li) as (m1 & a' & E1 & G1 & Nv & V1 & F1 & L1). rewrite E1.
      assert (Da : a' <> a) by congruence.
      destruct (deref_ok i m1 (fun x => T (upd vs h None) x + one x a') a) as (m2 & E2 & G2 & F2 & L2).
      { eapply good_ext; [|exact G1]. intros y. cbv beta. rewrite (T_none vs h a y Lv Vh). lia. }
      rewrite E2. assert (V2 : val m2 a' = Some l) by (rewrite F2; [auto|left; rewrite one_same; lia]).
      destruct (store_ok i m2 _ a' l j v G2 V2 Hj) as (m3 & E3 & G3 & V3 & F3 & L3). rewrite E3.
      exists m3, (upd vs h (Some a')). split; [reflexivity|]. split; [|split; [|split; [|split]]].
      * eapply good_ext; [|exact G3]. intros x. symmetry. apply (T_some vs h a); auto.
      * eapply agree_upd; eauto. intros h' b D E. assert (Nb : val m b <> None) by eauto.
        rewrite F3 by congruence. rewrite F2; [auto|]. destruct (still vs h h' b Vo D E); [left; lia|auto].
      * apply vars_upd; auto.
      * intros b P Nb. rewrite F3 by congruence. rewrite F2; [auto|]. unfold T. destruct P; [left; lia|auto].
      * lia.
    + assert (Only : T0 a = 0 /\ base a = 0 /\ cnt k (upd vs h None) a = 0).
      { pose proof (T_none vs h a a Lv Vh) as C. rewrite one_same in C. unfold T in C, R. lia. }
      destruct Only as (O1 & O2 & O3). assert (Fa : fst a <> 0) by (unfold base in O2; destruct (Nat.eqb_spec (fst a) 0); [discriminate|auto]).
      destruct (store_ok i m _ a l j v G Va Hj) as (m3 & E3 & G3 & V3 & F3 & L3). rewrite E3.
      exists m3, vs. split; [reflexivity|]. split; [auto|]. split; [|split; [auto|split; [|lia]]].
      * rewrite <- (upd_same vs h (Some a) Vh). eapply agree_upd; eauto. intros h' b D E. apply F3. intros ->.
        destruct (still vs h h' a Vo D E) as [P|P]; [unfold T in P; lia|congruence].
      * intros b P _. apply F3. intros ->. destruct P; [lia|congruence].
  - (* ORead *)
    destruct (svar s h) as [l|] eqn:Sh; [|discriminate]. destruct (nth_error l j) as [v|] eqn:Nj; [|discriminate]. injection St as <- <-.
    destruct (agree_var m vs s h l Ag Sh) as (a & Vh & Va & B). unfold with_var. rewrite Vh. destruct (val_block _ _ _ Va) as (b & E & <-).
    exists m, vs. cbn [complete]. rewrite E. cbn [bind]. rewrite (rd_ok _ _ _ Nj). cbn [bind complete].
    repeat (split; [solve [auto]|]). split; [intros ? ? ?; reflexivity|reflexivity].
  - (* OSize *)
    destruct (svar s h) as [l|] eqn:Sh; [|discriminate]. injection St as <- <-.
    destruct (agree_var m vs s h l Ag Sh) as (a & Vh & Va & B). unfold with_var. rewrite Vh. destruct (val_block _ _ _ Va) as (b & E & <-).
    exists m, vs. cbn [complete]. rewrite E. cbn [bind complete].
    repeat (split; [solve [auto]|]). split; [intros ? ? ?; reflexivity|reflexivity].
  - (* OResize *)
    destruct (svar s h) as [l0|] eqn:Sh; [|discriminate]. injection St as <- <-.
    destruct (agree_var m vs s h l0 Ag Sh) as (a & Vh & Va & B). unfold with_var. rewrite Vh.
    destruct (deref_ok i m (T (upd vs h None)) a) as (m1 & E1 & G1 & F1 & L1).
    { eapply good_ext; [|exact G]. intros x. apply (T_none vs h a); auto. }
    destruct (alloc_ok i m1 (T (upd vs h None)) l G1) as (m2 & b & E2 & G2 & Nv & V2 & F2 & L2); [lia|].
    exists m2, (upd vs h (Some b)). rewrite E1, E2. split; [reflexivity|]. split; [|split; [|split; [|split]]].
    + eapply good_ext; [|exact G2]. intros x. symmetry. apply (T_some vs h a); auto.
    + eapply agree_upd; eauto. intros h' a' D' E'. assert (F : val m1 a' = val m a') by (apply F1; apply (still vs h h'); auto).
      rewrite <- F. apply F2. rewrite F. eauto.
    + apply vars_upd; auto.
    + intros a' P Na. assert (F : val m1 a' = val m a') by (apply F1; unfold T; destruct P; [left; lia|auto]). rewrite <- F. apply F2. rewrite F. auto.
    + lia.
  - (* ODestroy *)
    destruct (svar s h) as [l0|] eqn:Sh; [|discriminate]. injection St as <- <-.
    destruct (agree_var m vs s h l0 Ag Sh) as (a & Vh & Va & B). unfold with_var. rewrite Vh.
    destruct (deref_ok i m (T (upd vs h None)) a) as (m1 & E1 & G1 & F1 & L1).
    { eapply good_ext; [|exact G]. intros x. apply (T_none vs h a); auto. }
    exists m1, (upd vs h None). rewrite E1. split; [reflexivity|]. split; [auto|]. split; [|split; [|split]].
    + eapply agree_upd; eauto. intros h' a' D' E'. apply F1. apply (still vs h h'); auto.
    + apply vars_upd; auto.
    + intros a' P _. apply F1. unfold T. destruct P; [left; lia|auto].
    + lia.
Qed.
End Operation.

(* ---- configurations ---- *)
Section Config.
Context {A : Type} (k : nat) (shared : list (list A)) (R : list (sstate A * list (obs A))).
Implicit Types m : mem A.
Implicit Types ts : list (thread A).

Definition total ts (a : addr) : nat := list_sum (map (fun t => cnt k (th_vars t) a) ts).

Lemma total_split ts i t : nth_error ts i = Some t -> forall a, total ts a = total (others i ts) a + cnt k (th_vars t) a.
Proof.
  intros E a. unfold total, others. apply nth_error_split in E. destruct E as (l1 & l2 & -> & <-).
  rewrite firstn_app, firstn_all, Nat.sub_diag. cbn [firstn]. rewrite app_nil_r.
  replace (l1 ++ t :: l2) with ((l1 ++ [t]) ++ l2) by (rewrite <- app_assoc; reflexivity).
  replace (S (length l1)) with (length (l1 ++ [t])) by (rewrite app_length; cbn; lia).
  rewrite skipn_app, skipn_all, Nat.sub_diag. cbn [skipn app]. rewrite !map_app, !list_sum_app. cbn. lia.
Qed.
Lemma others_upd ts i t : others i (upd ts i t) = others i ts.
Proof.
  unfold others. revert i. induction ts as [|y ts IH]; intros i; [reflexivity|]. destruct i as [|i]; [reflexivity|].
  cbn [upd firstn skipn app]. f_equal. apply IH.
Qed.
Lemma others_in ts i j t : j <> i -> nth_error ts j = Some t -> In t (others i ts).
Proof.
  unfold others. revert i j. induction ts as [|y ts IH]; intros i j D E; [destruct j; discriminate|].
  destruct i as [|i], j as [|j]; cbn [nth_error firstn skipn app] in *.
  - congruence.
  - eapply nth_error_In; eauto.
  - injection E as ->. left. reflexivity.
  - right. apply (IH i j); auto.
Qed.
Lemma in_others ts i t : In t (others i ts) -> exists j, j <> i /\ nth_error ts j = Some t.
Proof.
  unfold others. revert i. induction ts as [|y ts IH]; intros i H.
  - destruct i; destruct H.
  - destruct i as [|i]; cbn [firstn skipn app] in H.
    + apply In_nth_error in H. destruct H as [j E]. exists (S j). split; [lia|exact E].
    + destruct H as [->|H]; [exists 0; split; [lia|reflexivity]|]. destruct (IH i H) as (j & D & E). exists (S j). split; [lia|exact E].
Qed.
Lemma total_in ts t a : In t ts -> cnt k (th_vars t) a <= total ts a.
Proof.
  unfold total. induction ts as [|y ts IH]; intros H; [destruct H|]. cbn [map].
  destruct H as [->|H]; [|specialize (IH H)]; unfold list_sum in *; cbn [fold_right]; lia.
Qed.

Definition idle m ts : Prop :=
  length m = S (length ts) /\ length ts = length R /\ good m (total ts) /\
  (forall j l, nth_error shared j = Some l -> val m (0, j) = Some l) /\
  forall j t, nth_error ts j = Some t -> th_cur t = None /\ vars_ok k (th_vars t) /\ Forall (leaves k) (th_todo t) /\
    exists tf xs s ys, nth_error R j = Some (tf, xs) /\ agree m (th_vars t) s /\ srun s (th_todo t) = Some (tf, ys) /\ xs = th_obs t ++ ys.

Definition conf (c : config A) : Prop :=
  let (m, ts) := c in
  idle m ts \/
  exists i t p m' vs x, nth_error ts i = Some t /\ th_cur t = Some p /\
    (forall j tj, j <> i -> nth_error ts j = Some tj -> th_cur tj = None) /\
    complete i m p = Ok (m', (vs, x)) /\ idle m' (upd ts i (mkTh vs None (th_todo t) (th_obs t ++ [x]))).

Lemma nobody ts i : (forall j tj, j <> i -> nth_error ts j = Some tj -> th_cur tj = None) -> existsb inside (others i ts) = false.
Proof.
  intros H. destruct (existsb inside (others i ts)) eqn:E; [|reflexivity]. apply existsb_exists in E. destruct E as (t & I & E).
  apply in_others in I. destruct I as (j & D & N). unfold inside in E. rewrite (H j t D N) in E. discriminate.
Qed.

(* the beginning of an operation *)
Lemma begins m ts i t o rest : idle m ts -> nth_error ts i = Some t -> th_todo t = o :: rest ->
  conf (m, upd ts i (mkTh (th_vars t) (Some (op_prog (th_vars t) o)) rest (th_obs t))).
Proof.
  intros (L1 & L2 & G & Sh & H) E Et. destruct (H i t E) as (C & Vo & Fl & tf & xs & s & ys & ER & Ag & Sr & Ex).
  rewrite Et in Fl, Sr. inversion Fl as [|? ? Lo Fr]. subst. cbn [srun] in Sr. destruct (sstep s o) as [[s1 x]|] eqn:St; [|discriminate].
  destruct (srun s1 rest) as [[s2 ys']|] eqn:Sr'; [|discriminate]. injection Sr as -> <-.
  assert (B : i < length ts) by (apply nth_error_Some; congruence).
  destruct (op_ok i k (total (others i ts)) m (th_vars t) s o s1 x) as (m' & vs' & Ec & G' & Ag' & Vo' & Fr' & Lm); auto.
  { eapply good_ext; [|exact G]. intros a. apply total_split. exact E. }
  { lia. }
  right. exists i. eexists. eexists. exists m', vs', x.
  split; [rewrite nth_error_upd_eq by auto; reflexivity|]. split; [reflexivity|]. cbn [th_todo th_obs].
  split; [intros j tj D Nj; rewrite nth_error_upd_ne in Nj by auto; apply (H j tj Nj)|]. split; [exact Ec|].
  rewrite upd_upd. set (t' := mkTh vs' None rest (th_obs t ++ [x])).
  split; [rewrite length_upd; lia|]. split; [rewrite length_upd; auto|]. split; [|split].
  - eapply good_ext; [|exact G']. intros a. rewrite (total_split (upd ts i t') i t') by (apply nth_error_upd_eq; auto). rewrite others_upd. reflexivity.
  - intros j l Nj. rewrite Fr'; [apply Sh; auto|right; reflexivity|]. rewrite (Sh j l Nj). discriminate.
  - intros j tj Nj. destruct (Nat.eq_dec j i) as [->|D].
    + rewrite nth_error_upd_eq in Nj by auto. injection Nj as <-. cbn [t' th_cur th_vars th_todo th_obs].
      split; [reflexivity|]. split; [auto|]. split; [auto|]. exists tf, (th_obs t ++ x :: ys'), s1, ys'. split; [auto|]. split; [auto|]. split; [auto|].
      rewrite <- app_assoc. reflexivity.
    + rewrite nth_error_upd_ne in Nj by auto. destruct (H j tj Nj) as (Cj & Voj & Flj & tfj & xsj & sj & ysj & ERj & Agj & Srj & Exj).
      split; [auto|]. split; [auto|]. split; [auto|]. exists tfj, xsj, sj, ysj. split; [auto|]. split; [|auto].
      destruct Agj as [La Ha]. split; [auto|]. intros h. specialize (Ha h). destruct (nth_error (th_vars tj) h) as [[a|]|] eqn:Nh; auto.
      destruct Ha as (l & V & N). exists l. split; [|auto]. rewrite Fr'; [auto| |congruence].
      destruct (Nat.lt_ge_cases h k) as [Bh|Bh]; [right; exact (proj2 Voj h a Bh Nh)|left].
      pose proof (cnt_in k _ h a Bh Nh). pose proof (total_in (others i ts) tj a (others_in ts i j tj D Nj)). lia.
Qed.

Lemma turn_conf c i : conf c -> exists c', turn_locked i c = Ok c' /\ conf c' /\ length (snd c') = length (snd c).
Proof.
  destruct c as [m ts]. intros C. unfold turn_locked. cbn [snd].
  destruct (existsb inside (others i ts)) eqn:Ew; [exists (m, ts); auto|].
  unfold turn. destruct (nth_error ts i) as [t|] eqn:E; [|exists (m, ts); auto].
  assert (B : i < length ts) by (apply nth_error_Some; congruence).
  destruct C as [C|(i0 & t0 & p & m' & vs & x & E0 & C0 & No & Co & Id)].
  - pose proof C as C'. destruct C' as (_ & _ & _ & _ & H). destruct (H i t E) as (Ct & _). unfold thread_step. rewrite Ct.
    destruct (th_todo t) as [|o rest] eqn:Et.
    + cbn [bind]. rewrite (upd_same ts i t E). exists (m, ts). split; [reflexivity|]. split; [left; auto|reflexivity].
    + cbn [bind]. eexists. split; [reflexivity|]. split; [apply begins; auto|cbn [snd]; apply length_upd].
  - destruct (Nat.eq_dec i0 i) as [->|D].
    + rewrite E in E0. injection E0 as <-. unfold thread_step. rewrite C0.
      assert (Go : (exists y, p = Ret y) \/ (forall y, p <> Ret y)) by (destruct p; [left; eauto| | | | | | | |]; right; intros; discriminate).
      destruct Go as [[y ->]|Nr].
      * destruct y as [vs0 x0]. cbn [complete] in Co. injection Co as <- <- <-. cbn [bind]. eexists. split; [reflexivity|].
        split; [left; exact Id|cbn [snd]; apply length_upd].
      * destruct (complete_access i m p m' (vs, x) Co Nr) as (m1 & p1 & Ac & Co1).
        assert (Es : match p with
                     | Ret (vs, x) => Ok (m, {| th_vars := vs; th_cur := None; th_todo := th_todo t; th_obs := th_obs t ++ [x] |})
                     | _ => '(m', p') <- access i m p;; Ok (m', {| th_vars := th_vars t; th_cur := Some p'; th_todo := th_todo t; th_obs := th_obs t |})
                     end = Ok (m1, mkTh (th_vars t) (Some p1) (th_todo t) (th_obs t))).
        { destruct p; try (rewrite Ac; reflexivity). destruct x0 as [a b]. elim (Nr (a, b)). reflexivity. }
        rewrite Es. cbn [bind]. eexists. split; [reflexivity|]. split; [|cbn [snd]; apply length_upd].
        right. exists i. eexists. exists p1, m', vs, x. split; [apply nth_error_upd_eq; auto|]. split; [reflexivity|].
        split; [intros j tj D Nj; rewrite nth_error_upd_ne in Nj by auto; apply (No j tj D Nj)|]. split; [exact Co1|].
        rewrite upd_upd. cbn [th_todo th_obs]. exact Id.
    + assert (In t0 (others i ts)) as I by (eapply others_in; eauto).
      assert (existsb inside (others i ts) = true) by (apply existsb_exists; exists t0; split; [auto|unfold inside; rewrite C0; reflexivity]). congruence.
Qed.

Lemma exec_conf sched : forall c, conf c -> exists c', exec_locked sched c = Ok c' /\ conf c' /\ length (snd c') = length (snd c).
Proof.
  induction sched as [|i sched IH]; intros c C; cbn [exec_locked]; [exists c; auto|].
  destruct (turn_conf c i C) as (c1 & -> & C1 & L1). cbn [bind]. destruct (IH c1 C1) as (c2 & E & C2 & L2). exists c2. split; [auto|]. split; [auto|lia].
Qed.

Lemma exec_app s1 : forall s2 (c c1 : config A), exec_locked s1 c = Ok c1 -> exec_locked (s1 ++ s2) c = exec_locked s2 c1.
Proof.
  induction s1 as [|i s1 IH]; intros s2 c c1 E; cbn [exec_locked app] in *; [injection E as ->; reflexivity|].
  destruct (turn_locked i c) as [c'| | |]; try discriminate. cbn [bind] in *. apply IH. exact E.
Qed.

(* an operation under way can be ended *)
Lemma op_ends i : forall (p : prog A (tvars * obs A)) m ts t m' vs x, nth_error ts i = Some t -> th_cur t = Some p ->
  (forall j tj, j <> i -> nth_error ts j = Some tj -> th_cur tj = None) ->
  complete i m p = Ok (m', (vs, x)) ->
  exists n, exec_locked (repeat i n) (m, ts) = Ok (m', upd ts i (mkTh vs None (th_todo t) (th_obs t ++ [x]))).
Proof.
  assert (Step : forall m ts t p m1 p1, nth_error ts i = Some t -> th_cur t = Some p ->
    (forall j tj, j <> i -> nth_error ts j = Some tj -> th_cur tj = None) -> (forall y, p <> Ret y) -> access i m p = Ok (m1, p1) ->
    turn_locked i (m, ts) = Ok (m1, upd ts i (mkTh (th_vars t) (Some p1) (th_todo t) (th_obs t)))).
  { intros m ts t p m1 p1 E C No Nr Ac. unfold turn_locked. cbn [snd]. rewrite (nobody ts i No). unfold turn. rewrite E. unfold thread_step. rewrite C.
    destruct p; try (rewrite Ac; reflexivity). elim (Nr x). reflexivity. }
  assert (Go : forall p1 m1 (ts : list (thread A)) t m' vs x p m, nth_error ts i = Some t -> th_cur t = Some p ->
    (forall j tj, j <> i -> nth_error ts j = Some tj -> th_cur tj = None) -> (forall y, p <> Ret y) -> access i m p = Ok (m1, p1) ->
    (forall t1, nth_error (upd ts i t1) i = Some t1 -> th_cur t1 = Some p1 -> 
      (forall j tj, j <> i -> nth_error (upd ts i t1) j = Some tj -> th_cur tj = None) ->
      exists n, exec_locked (repeat i n) (m1, upd ts i t1) = Ok (m', upd (upd ts i t1) i (mkTh vs None (th_todo t1) (th_obs t1 ++ [x])))) ->
    exists n, exec_locked (repeat i n) (m, ts) = Ok (m', upd ts i (mkTh vs None (th_todo t) (th_obs t ++ [x])))).
  { intros p1 m1 ts t m' vs x p m E C No Nr Ac IH.
    assert (B : i < length ts) by (apply nth_error_Some; congruence).
    destruct (IH (mkTh (th_vars t) (Some p1) (th_todo t) (th_obs t))) as [n En].
    - apply nth_error_upd_eq. auto.
    - reflexivity.
    - intros j tj D Nj. rewrite nth_error_upd_ne in Nj by auto. eauto.
    - exists (S n). cbn [repeat exec_locked]. rewrite (Step m ts t p m1 p1 E C No Nr Ac). cbn [bind]. rewrite En. rewrite upd_upd. reflexivity. }
  induction p; intros m ts t m' vs x' E C No Co.
  - destruct x as [vs0 x0]. cbn [complete] in Co. injection Co as <- <- <-. exists 1. cbn [repeat exec_locked]. unfold turn_locked. cbn [snd]. rewrite (nobody ts i No).
    unfold turn. rewrite E. unfold thread_step. rewrite C. reflexivity.
  - discriminate Co.
  - cbn [complete] in Co. destruct (block_at m a) as [b| | |] eqn:Eb; try discriminate Co. cbn [bind] in Co.
    eapply (Go _ _ ts t m' vs x' _ m E C No); [discriminate|cbn [access]; rewrite Eb; reflexivity|]. intros t1 E1 C1 No1. eapply H; eauto.
  - cbn [complete] in Co. destruct (block_at m a) as [b| | |] eqn:Eb; try discriminate Co. cbn [bind] in Co.
    eapply (Go _ _ ts t m' vs x' _ m E C No); [discriminate|cbn [access]; rewrite Eb; reflexivity|]. intros t1 E1 C1 No1. eapply IHp; eauto.
  - cbn [complete] in Co. destruct (block_at m a) as [b| | |] eqn:Eb; try discriminate Co. cbn [bind] in Co.
    eapply (Go _ _ ts t m' vs x' _ m E C No); [discriminate|cbn [access]; rewrite Eb; reflexivity|]. intros t1 E1 C1 No1. eapply H; eauto.
  - cbn [complete] in Co. destruct (block_at m a) as [b| | |] eqn:Eb; try discriminate Co. cbn [bind] in Co.
    destruct (rd (bdata b) i0) as [v| | |] eqn:Er; try discriminate Co. cbn [bind] in Co.
    eapply (Go _ _ ts t m' vs x' _ m E C No); [discriminate|cbn [access]; rewrite Eb; cbn [bind]; rewrite Er; reflexivity|]. intros t1 E1 C1 No1. eapply H; eauto.
  - cbn [complete] in Co. destruct (block_at m a) as [b| | |] eqn:Eb; try discriminate Co. cbn [bind] in Co.
    destruct (wr (bdata b) i0 v) as [l| | |] eqn:Er; try discriminate Co. cbn [bind] in Co.
    eapply (Go _ _ ts t m' vs x' _ m E C No); [discriminate|cbn [access]; rewrite Eb; cbn [bind]; rewrite Er; reflexivity|]. intros t1 E1 C1 No1. eapply IHp; eauto.
  - cbn [complete] in Co. destruct (nth_error m (S i)) as [ar|] eqn:Eb; try discriminate Co.
    eapply (Go _ _ ts t m' vs x' _ m E C No); [discriminate|cbn [access]; rewrite Eb; reflexivity|]. intros t1 E1 C1 No1. eapply H; eauto.
  - cbn [complete] in Co. destruct (block_at m a) as [b| | |] eqn:Eb; try discriminate Co. cbn [bind] in Co.
    eapply (Go _ _ ts t m' vs x' _ m E C No); [discriminate|cbn [access]; rewrite Eb; reflexivity|]. intros t1 E1 C1 No1. eapply IHp; eauto.
Qed.

Definition todo ts : nat := list_sum (map (fun t => length (th_todo t)) ts).

Lemma todo_upd ts i t t' : nth_error ts i = Some t -> todo (upd ts i t') + length (th_todo t) = todo ts + length (th_todo t').
Proof.
  unfold todo, list_sum. revert i. induction ts as [|y ts IH]; intros [|i] E; cbn [nth_error upd map fold_right] in *; try discriminate.
  - injection E as ->. lia.
  - specialize (IH i E). lia.
Qed.

Lemma idle_ends n : forall m ts, todo ts <= n -> idle m ts -> exists sched m' ts', exec_locked sched (m, ts) = Ok (m', ts') /\ idle m' ts' /\ Forall finished ts'.
Proof.
  induction n as [|n IH]; intros m ts Hn Id.
  - exists [], m, ts. split; [reflexivity|]. split; [auto|]. apply Forall_forall. intros t It. apply In_nth_error in It. destruct It as [j E].
    pose proof (todo_upd ts j t t E). destruct Id as (_ & _ & _ & _ & H'). destruct (H' j t E) as (C & _).
    split; [auto|]. pose proof (todo_upd ts j t (mkTh [] None [] []) E) as Q. cbn [th_todo length] in Q. destruct (th_todo t); [reflexivity|cbn in Q; lia].
  - destruct (Forall_Exists_dec (fun t : thread A => th_todo t = [])) with (l := ts) as [F|F].
    + intros t. destruct (th_todo t); [left; reflexivity|right; discriminate].
    + exists [], m, ts. split; [reflexivity|]. split; [auto|]. rewrite Forall_forall in *. intros t It. split; [|auto].
      apply In_nth_error in It. destruct It as [j E]. destruct Id as (_ & _ & _ & _ & H'). apply (H' j t E).
    + apply Exists_exists in F. destruct F as (t & It & Nt). apply In_nth_error in It. destruct It as [i E].
      destruct (th_todo t) as [|o rest] eqn:Et; [congruence|]. pose proof (begins m ts i t o rest Id E Et) as C.
      set (t1 := mkTh (th_vars t) (Some (op_prog (th_vars t) o)) rest (th_obs t)) in *.
      assert (B : i < length ts) by (apply nth_error_Some; congruence).
      assert (No : forall j tj, j <> i -> nth_error (upd ts i t1) j = Some tj -> th_cur tj = None).
      { intros j tj D Nj. rewrite nth_error_upd_ne in Nj by auto. destruct Id as (_ & _ & _ & _ & H'). apply (H' j tj Nj). }
      assert (St : turn_locked i (m, ts) = Ok (m, upd ts i t1)).
      { unfold turn_locked. cbn [snd]. rewrite nobody by (intros j tj _ Nj; destruct Id as (_ & _ & _ & _ & H'); apply (H' j tj Nj)).
        unfold turn. rewrite E. unfold thread_step. destruct Id as (_ & _ & _ & _ & H'). rewrite (proj1 (H' i t E)), Et. reflexivity. }
      destruct C as [C|(i0 & t0 & p & m' & vs & x & E0 & C0 & No0 & Co & Id')].
      * destruct C as (_ & _ & _ & _ & H'). specialize (H' i t1 (nth_error_upd_eq ts i t1 B)). destruct H' as [C _]. discriminate C.
      * assert (i0 = i).
        { destruct (Nat.eq_dec i0 i) as [|D]; [auto|]. rewrite (No i0 t0 D E0) in C0. discriminate. }
        subst i0. rewrite nth_error_upd_eq in E0 by auto. injection E0 as <-.
        destruct (op_ends i p m (upd ts i t1) t1 m' vs x (nth_error_upd_eq ts i t1 B) C0 No Co) as [q Eq].
        destruct (IH m' (upd (upd ts i t1) i (mkTh vs None (th_todo t1) (th_obs t1 ++ [x])))) as (sched & m2 & ts2 & E2 & Id2 & F2); [|exact Id'|].
        { rewrite upd_upd. pose proof (todo_upd ts i t (mkTh vs None (th_todo t1) (th_obs t1 ++ [x])) E) as Q. rewrite Et in Q. cbn [th_todo t1 length] in Q |- *. lia. }
        exists (i :: repeat i q ++ sched), m2, ts2. split; [|auto]. cbn [exec_locked]. rewrite St. cbn [bind]. rewrite (exec_app _ _ _ _ Eq). exact E2.
Qed.

Lemma conf_ends c : conf c -> exists sched m' ts', exec_locked sched c = Ok (m', ts') /\ idle m' ts' /\ Forall finished ts'.
Proof.
  destruct c as [m ts]. intros [C|(i & t & p & m' & vs & x & E & C & No & Co & Id)].
  - apply (idle_ends (todo ts)); auto.
  - destruct (op_ends i p m ts t m' vs x E C No Co) as [q Eq]. edestruct idle_ends as (sched & m2 & ts2 & E2 & Id2 & F2); [apply Nat.le_refl|exact Id|].
    exists (repeat i q ++ sched), m2, ts2. split; [|auto]. rewrite (exec_app _ _ _ _ Eq). exact E2.
Qed.
End Config.

Lemma start_idle {A} (shared : list (list A)) progs :
  Forall (Forall (leaves (length shared))) progs -> (forall p, In p progs -> srun (map Some shared) p <> None) ->
  exists R, length R = length progs /\
    (forall i p r, nth_error progs i = Some p -> srun (map Some shared) p = Some r -> nth_error R i = Some r) /\
    idle (length shared) shared R (fst (start shared progs)) (snd (start shared progs)).
Proof.
  intros Fl Sr. set (run := fun p => match srun (map Some shared) p with Some r => r | None => ([], []) end).
  exists (map run progs). split; [apply map_length|]. split.
  { intros i p r E Er. rewrite nth_error_map, E. cbn [option_map]. unfold run. rewrite Er. reflexivity. }
  cbn [start fst snd].
  set (vs := map (fun k => Some (0, k)) (seq 0 (length shared)) : tvars).
  set (m := map (fun l => Some (mkB l 1)) shared :: map (fun _ => []) progs).
  assert (Lv : length vs = length shared) by (unfold vs; rewrite map_length, seq_length; reflexivity).
  assert (Nv : forall h, h < length shared -> nth_error vs h = Some (Some (0, h))).
  { intros h H. unfold vs. rewrite nth_error_map. rewrite (nth_error_nth' _ 0) by (rewrite seq_length; auto). rewrite seq_nth by auto. reflexivity. }
  assert (B0 : forall j l, nth_error shared j = Some l -> block_at m (0, j) = Ok (mkB l 1)).
  { intros j l E. unfold block_at, m. cbn [fst snd nth_error]. rewrite nth_error_map, E. reflexivity. }
  assert (B1 : forall a b, block_at m a = Ok b -> fst a = 0 /\ brefs b = 1%Z).
  { intros [[|x] y] b; unfold block_at, m; cbn [fst snd nth_error].
    - rewrite nth_error_map. destruct (nth_error shared y); cbn [option_map]; [|discriminate]. intros H. injection H as <-. auto.
    - rewrite nth_error_map. destruct (nth_error progs x); cbn [option_map]; [|discriminate]. destruct y; discriminate. }
  assert (Tz : forall a, total (length shared) (map (fun p => mkTh vs None p []) progs) a = 0).
  { intros a. unfold total. rewrite map_map. cbn [th_vars].
    replace (cnt (length shared) vs a) with 0 by (unfold cnt; rewrite <- Lv, skipn_all; reflexivity).
    unfold list_sum. clear. induction progs as [|p l IH]; [reflexivity|]. cbn [map fold_right]. rewrite IH. reflexivity. }
  split; [unfold m; cbn [length]; rewrite !map_length; reflexivity|]. split; [rewrite !map_length; reflexivity|]. split; [split|split].
  - intros a b H. rewrite Tz. destruct (B1 a b H) as [F ->]. unfold base. rewrite F. cbn. lia.
  - intros a H. rewrite Tz in H. lia.
  - intros j l E. unfold val. rewrite (B0 j l E). reflexivity.
  - intros j t E. rewrite nth_error_map in E. destruct (nth_error progs j) as [p|] eqn:Ep; [|discriminate]. cbn [option_map] in E. injection E as <-.
    cbn [th_cur th_vars th_todo th_obs]. assert (Ip : In p progs) by (eapply nth_error_In; eauto).
    split; [reflexivity|]. split; [split; [lia|]|].
    { intros h a H. rewrite Nv by auto. intros Q. injection Q as <-. reflexivity. }
    split; [rewrite Forall_forall in Fl; auto|].
    destruct (srun (map Some shared) p) as [[tf xs]|] eqn:Es; [|elim (Sr p Ip Es)].
    exists tf, xs, (map Some shared), xs. split; [rewrite nth_error_map, Ep; cbn [option_map]; unfold run; rewrite Es; reflexivity|].
    split; [|auto]. split; [rewrite map_length; auto|]. intros h. destruct (Nat.lt_ge_cases h (length shared)) as [H|H].
    + rewrite Nv by auto. destruct (nth_error shared h) as [l|] eqn:El; [|apply nth_error_None in El; lia]. exists l.
      split; [unfold val; rewrite (B0 h l El); reflexivity|rewrite nth_error_map, El; reflexivity].
    + replace (nth_error vs h) with (@None (option addr)); [exact I|]. symmetry. apply nth_error_None. lia.
Qed.

(* what can be said of a state in which nobody is inside an operation *)
Lemma agree_values {A} (m : mem A) vs s : agree m vs s ->
  map (fun v => match v with Some a => match block_at m a with Ok b => Some (bdata b) | _ => None end | None => None end) vs = s.
Proof.
  intros [L H]. apply list_eq_nth_len; [rewrite map_length; auto|]. intros h Hh. rewrite map_length in Hh. rewrite nth_error_map. specialize (H h).
  destruct (nth_error vs h) as [[a|]|] eqn:E; cbn [option_map].
  - destruct H as (l & V & ->). unfold val in V. rewrite V. reflexivity.
  - auto.
  - apply nth_error_None in E. lia.
Qed.
