(* Outcome monad, bounds-checked arrays and loops shared by all models,
   with their basic lemmas. *)
From Coq Require Export List Arith ZArith Lia Bool.
From Coq Require Export ZifyBool ZifyNat.
Export ListNotations.

(* ------------------------------------------------------------------ *)
(** * Outcomes *)

(* What running a piece of C++ can result in.
   [Abort]: a failed assert() or an explicit call to abort().
   [UB]: undefined behaviour (out-of-bounds access, division by zero, use of
         freed or uninitialised memory).
   [Hang]: the loop fuel of the model was exhausted. *)
Inductive outcome (A : Type) : Type :=
| Ok (a : A)
| Abort
| UB
| Hang.
Arguments Ok {A} a.
Arguments Abort {A}.
Arguments UB {A}.
Arguments Hang {A}.

Definition bind {A B} (x : outcome A) (f : A -> outcome B) : outcome B :=
  match x with
  | Ok a => f a
  | Abort => Abort
  | UB => UB
  | Hang => Hang
  end.

Notation "x <- e ;; k" := (bind e (fun x => k))
  (at level 61, e at next level, right associativity).
Notation "' p <- e ;; k" := (bind e (fun p => k))
  (at level 61, p pattern, e at next level, right associativity).

(* assert(b) *)
Definition assert_ (b : bool) : outcome unit := if b then Ok tt else Abort.

Lemma bind_ok {A B} (x : outcome A) (f : A -> outcome B) b :
  bind x f = Ok b -> exists a, x = Ok a /\ f a = Ok b.
Proof. destruct x; simpl; try discriminate; eauto. Qed.

Lemma bind_assoc {A B C} (x : outcome A) (f : A -> outcome B) (g : B -> outcome C) :
  bind (bind x f) g = bind x (fun a => bind (f a) g).
Proof. destruct x; reflexivity. Qed.

(* ------------------------------------------------------------------ *)
(** * Arrays *)

Section Arrays.
  Context {A : Type}.

  (* replace the i-th element; identity when out of range *)
  Fixpoint upd (l : list A) (i : nat) (v : A) : list A :=
    match l, i with
    | [], _ => []
    | _ :: l', 0 => v :: l'
    | x :: l', S i' => x :: upd l' i' v
    end.

  (* read p[i]; reading outside the block is UB *)
  Definition rd (l : list A) (i : nat) : outcome A :=
    match nth_error l i with Some x => Ok x | None => UB end.

  (* write p[i] = v; writing outside the block is UB *)
  Definition wr (l : list A) (i : nat) (v : A) : outcome (list A) :=
    if i <? length l then Ok (upd l i v) else UB.

  (* the same with a signed position, as computed by the C++ code *)
  Definition rdZ (l : list A) (i : Z) : outcome A :=
    if (i <? 0)%Z then UB else rd l (Z.to_nat i).

  Definition wrZ (l : list A) (i : Z) (v : A) : outcome (list A) :=
    if (i <? 0)%Z then UB else wr l (Z.to_nat i) v.

  (* uninitialised block of n elements; [junk] is arbitrary *)
  Definition alloc (junk : nat -> A) (n : nat) : list A := map junk (seq 0 n).

  Lemma length_upd l i v : length (upd l i v) = length l.
  Proof. revert i; induction l as [|x l IH]; intros [|i]; simpl; auto. Qed.

  Lemma nth_error_upd l i v j :
    nth_error (upd l i v) j =
    if (j =? i) && (i <? length l) then Some v else nth_error l j.
  Proof.
    revert i j; induction l as [|x l IH]; intros i j; simpl.
    - rewrite andb_comm; simpl. destruct j; reflexivity.
    - destruct i as [|i], j as [|j]; simpl; auto.
      rewrite IH. reflexivity.
  Qed.

  Lemma nth_error_upd_eq l i v : i < length l -> nth_error (upd l i v) i = Some v.
  Proof.
    intros H. rewrite nth_error_upd.
    replace (i =? i) with true by (symmetry; apply Nat.eqb_refl).
    apply Nat.ltb_lt in H; rewrite H; reflexivity.
  Qed.

  Lemma nth_error_upd_ne l i v j : j <> i -> nth_error (upd l i v) j = nth_error l j.
  Proof.
    intros H. rewrite nth_error_upd.
    apply Nat.eqb_neq in H; rewrite H; reflexivity.
  Qed.

  Lemma length_alloc junk n : length (alloc junk n) = n.
  Proof. unfold alloc; rewrite map_length, seq_length; reflexivity. Qed.

  Lemma rd_ok l i x : nth_error l i = Some x -> rd l i = Ok x.
  Proof. unfold rd; intros ->; reflexivity. Qed.

  Lemma wr_ok l i v : i < length l -> wr l i v = Ok (upd l i v).
  Proof. unfold wr; intros H; apply Nat.ltb_lt in H; rewrite H; reflexivity. Qed.

  Lemma list_eq_nth (l1 l2 : list A) :
    (forall i, nth_error l1 i = nth_error l2 i) -> l1 = l2.
  Proof.
    revert l2; induction l1 as [|x l1 IH]; intros [|y l2] H; auto.
    - specialize (H 0); discriminate.
    - specialize (H 0); discriminate.
    - f_equal.
      + specialize (H 0); simpl in H; congruence.
      + apply IH; intros i; exact (H (S i)).
  Qed.

  Lemma list_eq_nth_len (l1 l2 : list A) :
    length l1 = length l2 ->
    (forall i, i < length l1 -> nth_error l1 i = nth_error l2 i) -> l1 = l2.
  Proof.
    intros Hlen H. apply list_eq_nth; intros i.
    destruct (Nat.lt_ge_cases i (length l1)) as [Hi|Hi]; auto.
    rewrite (proj2 (nth_error_None l1 i)), (proj2 (nth_error_None l2 i)); auto; lia.
  Qed.

  Lemma nth_error_lt (l : list A) i : i < length l -> exists x, nth_error l i = Some x.
  Proof.
    intros H. destruct (nth_error l i) eqn:E; eauto.
    apply nth_error_None in E; lia.
  Qed.

  Lemma nth_error_lt_inv (l : list A) i x : nth_error l i = Some x -> i < length l.
  Proof. intros H; apply nth_error_Some; congruence. Qed.

End Arrays.

Lemma nth_error_seq0 n q : q < n -> nth_error (seq 0 n) q = Some q.
Proof.
  intros H. rewrite (nth_error_nth' (seq 0 n) 0) by (rewrite seq_length; exact H).
  rewrite seq_nth by exact H. reflexivity.
Qed.

Lemma nth_error_map_seq {A} (f : nat -> A) n q :
  q < n -> nth_error (map f (seq 0 n)) q = Some (f q).
Proof. intros H. rewrite nth_error_map, nth_error_seq0 by exact H. reflexivity. Qed.

(* ------------------------------------------------------------------ *)
(** * Counted loops:  for (i = i0; i < i0+n; i++) body *)

Section Loops.
  Context {St : Type}.

  Fixpoint for_from (i n : nat) (body : nat -> St -> outcome St) (s : St) : outcome St :=
    match n with
    | 0 => Ok s
    | S n' => s' <- body i s ;; for_from (S i) n' body s'
    end.

  Definition for_ (n : nat) (body : nat -> St -> outcome St) (s : St) : outcome St :=
    for_from 0 n body s.

  Lemma for_from_S_end i n body s :
    for_from i (S n) body s = (s' <- for_from i n body s ;; body (i + n) s').
  Proof.
    revert i s; induction n as [|n IH]; intros i s.
    - simpl. rewrite Nat.add_0_r. destruct (body i s); reflexivity.
    - cbn [for_from] in *.
      destruct (body i s) as [s'| | |]; simpl; try reflexivity.
      specialize (IH (S i) s'). cbn [for_from] in IH. rewrite IH.
      replace (S i + n) with (i + S n) by lia. reflexivity.
  Qed.

  Lemma for_0 body s : for_ 0 body s = Ok s.
  Proof. reflexivity. Qed.

  Lemma for_S n body s : for_ (S n) body s = (s' <- for_ n body s ;; body n s').
  Proof. unfold for_. rewrite for_from_S_end. reflexivity. Qed.

  Lemma for_app n m body s :
    for_ (n + m) body s = (s' <- for_ n body s ;; for_ m (fun j => body (n + j)) s').
  Proof.
    induction m as [|m IH].
    - rewrite Nat.add_0_r. destruct (for_ n body s); reflexivity.
    - replace (n + S m) with (S (n + m)) by lia.
      rewrite for_S, IH, bind_assoc.
      destruct (for_ n body s); simpl; try reflexivity.
      rewrite for_S. reflexivity.
  Qed.

  Lemma for_ext n body1 body2 s :
    (forall i s', i < n -> body1 i s' = body2 i s') ->
    for_ n body1 s = for_ n body2 s.
  Proof.
    induction n as [|n IH]; intros H; [reflexivity|].
    rewrite !for_S, IH.
    - destruct (for_ n body2 s); simpl; auto.
    - intros i s' Hi. apply H; lia.
  Qed.

  Lemma for_inv (P : nat -> St -> Prop) n body s :
    P 0 s ->
    (forall i s', i < n -> P i s' -> exists s'', body i s' = Ok s'' /\ P (S i) s'') ->
    exists s', for_ n body s = Ok s' /\ P n s'.
  Proof.
    intros H0. induction n as [|n IH]; intros Hstep.
    - exists s; split; auto.
    - destruct IH as (s' & E & Hs').
      { intros i s' Hi Hp. apply Hstep; auto. }
      destruct (Hstep n s' (Nat.lt_succ_diag_r n) Hs') as (s'' & E' & Hs'').
      exists s''. rewrite for_S, E. auto.
  Qed.

  (* partial-correctness form *)
  Lemma for_inv_partial (P : nat -> St -> Prop) n body s s' :
    P 0 s ->
    (forall i s1 s2, i < n -> P i s1 -> body i s1 = Ok s2 -> P (S i) s2) ->
    for_ n body s = Ok s' -> P n s'.
  Proof.
    intros H0. revert s'. induction n as [|n IH]; intros s' Hstep E.
    - inversion E; subst; auto.
    - rewrite for_S in E. apply bind_ok in E as (s1 & E1 & E2).
      eapply Hstep; eauto.
  Qed.
End Loops.

Lemma for_nest {St} n m (body : nat -> nat -> St -> outcome St) s :
  for_ n (fun i => for_ m (fun j => body i j)) s =
  for_ (n * m) (fun q => body (q / m) (q mod m)) s.
Proof.
  destruct (Nat.eq_dec m 0) as [->|Hm].
  - rewrite Nat.mul_0_r. induction n as [|n IH]; [reflexivity|].
    rewrite for_S, IH. reflexivity.
  - induction n as [|n IH]; [reflexivity|].
    rewrite for_S, IH. replace (S n * m) with (n * m + m) by lia.
    rewrite for_app. destruct (for_ (n * m) _ s); simpl; try reflexivity.
    apply for_ext. intros j s' Hj.
    rewrite Nat.add_comm, Nat.div_add, Nat.mod_add, Nat.div_small, Nat.mod_small by lia.
    reflexivity.
Qed.

(* ------------------------------------------------------------------ *)
(** * Sequential output:  *(out++) = v *)

Section SeqWrite.
  Context {A : Type}.

  (* write at the current output pointer and advance it *)
  Definition put (v : A) (st : list A * nat) : outcome (list A * nat) :=
    let (out, p) := st in
    out' <- wr out p v ;; Ok (out', S p).

  Lemma upd_app_mid (pre : list A) y rest v :
    upd (pre ++ y :: rest) (length pre) v = pre ++ v :: rest.
  Proof. induction pre as [|z pre IH]; simpl; congruence. Qed.

  Lemma skipn_S_eq (l : list A) n y rest : skipn n l = y :: rest -> skipn (S n) l = rest.
  Proof.
    revert n; induction l as [|z l IH]; intros [|n] E; simpl in *; try discriminate.
    - congruence.
    - exact (IH n E).
  Qed.

  Lemma seq_write (f : nat -> A) n (out : list A) p (body : nat -> list A * nat -> outcome (list A * nat)) :
    p + n <= length out ->
    (forall q st, q < n -> body q st = put (f q) st) ->
    for_ n body (out, p) =
    Ok (firstn p out ++ map f (seq 0 n) ++ skipn (p + n) out, p + n).
  Proof.
    induction n as [|n IH]; intros Hlen Hb.
    - rewrite for_0. simpl. rewrite Nat.add_0_r, firstn_skipn. reflexivity.
    - rewrite for_S, IH by (try lia; intros; apply Hb; lia).
      cbn [bind]. rewrite Hb by lia. unfold put.
      rewrite wr_ok.
      2:{ rewrite !app_length, firstn_length, map_length, seq_length, skipn_length. lia. }
      cbn [bind]. f_equal. f_equal; [|lia].
      assert (Hk : length (firstn p out ++ map f (seq 0 n)) = p + n).
      { rewrite app_length, firstn_length, map_length, seq_length. lia. }
      destruct (skipn (p + n) out) as [|y rest] eqn:Es.
      { assert (H0 : length (skipn (p+n) out) = 0) by (rewrite Es; reflexivity).
        rewrite skipn_length in H0. lia. }
      assert (Erest : skipn (p + S n) out = rest).
      { rewrite Nat.add_succ_r. exact (skipn_S_eq _ _ _ _ Es). }
      rewrite Erest, seq_S, map_app. rewrite <- Hk.
      rewrite app_assoc, upd_app_mid. rewrite <- !app_assoc. reflexivity.
  Qed.

  (* the usual case: the output block has exactly n elements *)
  Lemma seq_write_all (f : nat -> A) n (out : list A) body :
    length out = n ->
    (forall q st, q < n -> body q st = put (f q) st) ->
    for_ n body (out, 0) = Ok (map f (seq 0 n), n).
  Proof.
    intros Hlen Hb. rewrite (seq_write f) by (auto; lia).
    simpl. rewrite skipn_all2 by lia. rewrite app_nil_r. reflexivity.
  Qed.
End SeqWrite.

(* ------------------------------------------------------------------ *)
(** * Mapping a partial function over a list, left to right *)

Fixpoint mapM {A B} (f : A -> outcome B) (l : list A) : outcome (list B) :=
  match l with
  | [] => Ok []
  | x :: l' => y <- f x ;; ys <- mapM f l' ;; Ok (y :: ys)
  end.

Lemma mapM_ok {A B} (f : A -> outcome B) (g : A -> B) l :
  (forall x, In x l -> f x = Ok (g x)) -> mapM f l = Ok (map g l).
Proof.
  induction l as [|x l IH]; intros H; simpl; [reflexivity|].
  rewrite H by (left; reflexivity). simpl.
  rewrite IH; [reflexivity|]. intros; apply H; right; assumption.
Qed.

(* ------------------------------------------------------------------ *)
(** * Arithmetic helpers *)

Lemma mix_lt a b i j : i < a -> j < b -> i + a * j < a * b.
Proof. nia. Qed.

Lemma mix_div a i j : i < a -> (i + a * j) / a = j.
Proof.
  intros H. rewrite Nat.mul_comm, Nat.div_add, Nat.div_small by lia. reflexivity.
Qed.

Lemma mix_mod a i j : i < a -> (i + a * j) mod a = i.
Proof.
  intros H. rewrite Nat.mul_comm, Nat.mod_add, Nat.mod_small by lia. reflexivity.
Qed.

Lemma mix_split a q : a <> 0 -> q = q mod a + a * (q / a).
Proof. intros H. rewrite Nat.add_comm. apply Nat.div_mod; assumption. Qed.

Lemma mix_inj a i j i' j' : i < a -> i' < a -> i + a * j = i' + a * j' -> i = i' /\ j = j'.
Proof.
  intros Hi Hi' E. split.
  - rewrite <- (mix_mod a i j Hi), E. apply mix_mod; assumption.
  - rewrite <- (mix_div a i j Hi), E. apply mix_div; assumption.
Qed.
