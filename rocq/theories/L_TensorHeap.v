(* Tensor operations on shared memory: simulation by the value semantics of vectors. *)
From Verif Require Import Base Spec M_RefCount S_RefCount L_RefCount M_Iter S_Iter L_Iter M_Tensor M_Arith M_Range M_TensorHeap S_TensorHeap.
Local Open Scope nat_scope.

Section W.
Context {A : Type}.

Record wstate := mkW { wI : sstate nat; wE : sstate A; wK : kept }.

Fixpoint wrun {X} (p : prog A X) (w : wstate) : option (wstate * X) :=
  match p with
  | Done o => match o with Ok x => Some (w, x) | _ => None end
  | OnI o k => match sstep (wI w) o with Some (i, x) => wrun (k x) (mkW i (wE w) (wK w)) | None => None end
  | OnE o k => match isstep (wE w, wK w) o with Some ((e, ks), x) => wrun (k x) (mkW (wI w) e ks) | None => None end
  | NewI k => wrun (k (length (wI w))) w
  | NewE k => wrun (k (length (wE w)) (length (wK w))) w
  | Leave n p => wrun p (mkW (wI w) (wE w) (firstn n (wK w)))
  end.

Definition HRel (h : hstate A) (w : wstate) : Prop := Rel (hI h) (wI w) /\ IRel (hE h) (wE w, wK w).

Lemma Rel_length {B} (s : state B) t : Rel s t -> length (vars s) = length t.
Proof. intros [_ H]. unfold seen in H. apply (f_equal (@length _)) in H. rewrite !map_length in H. exact H. Qed.
Lemma F2_len {B C} (P : B -> C -> Prop) l m : Forall2 P l m -> length l = length m.
Proof. induction 1; cbn; auto. Qed.
Lemma F2_firstn {B C} (P : B -> C -> Prop) l m : Forall2 P l m -> forall n, Forall2 P (firstn n l) (firstn n m).
Proof. induction 1; intros [|n]; cbn; constructor; auto. Qed.

Lemma wsim {X} (p : prog A X) : forall h w w' x, HRel h w -> wrun p w = Some (w', x) ->
  exists h', hrun p h = Ok (h', x) /\ HRel h' w'.
Proof.
  induction p as [o|o k IH|o k IH|k IH|k IH|n p IH]; intros h w w' x [RI RE] H; cbn [wrun hrun] in *.
  - destruct o; inversion H; subst. cbn. eexists. split; [reflexivity|split; auto].
  - destruct (sstep (wI w) o) as [[i y]|] eqn:E; [|discriminate]. destruct (sim_step _ _ _ _ _ RI E) as (s' & E' & R' & _).
    rewrite E'. cbn [bind]. eapply IH; [|exact H]. split; cbn; auto.
  - destruct (isstep (wE w, wK w) o) as [[[e ks] y]|] eqn:E; [|discriminate]. destruct (isim_step _ _ _ _ _ RE E) as (s' & E' & R' & _).
    rewrite E'. cbn [bind]. eapply IH; [|exact H]. split; cbn; auto.
  - rewrite (Rel_length _ _ RI). eapply IH; [|exact H]. split; auto.
  - destruct RE as [R1 R2]. cbn [fst snd] in *. rewrite (Rel_length _ _ R1). rewrite <- (F2_len _ _ _ R2). eapply IH; [|exact H]. split; auto. split; auto.
  - eapply IH; [|exact H]. split; cbn; auto. destruct RE as [R1 R2]. split; cbn; auto. apply F2_firstn. exact R2.
Qed.

Lemma wrun_bind {X Y} (p : prog A X) (f : X -> prog A Y) : forall w,
  wrun (pbind p f) w = match wrun p w with Some (w', x) => wrun (f x) w' | None => None end.
Proof.
  induction p as [o|o k IH|o k IH|k IH|k IH|n p IH]; intros w; cbn [wrun pbind].
  - destruct o; reflexivity.
  - destruct (sstep (wI w) o) as [[i y]|]; auto.
  - destruct (isstep (wE w, wK w) o) as [[[e ks] y]|]; auto.
  - auto.
  - auto.
  - auto.
Qed.
Lemma hrun_bind {X Y} (p : prog A X) (f : X -> prog A Y) : forall h,
  hrun (pbind p f) h = ('(h', x) <- hrun p h ;; hrun (f x) h').
Proof.
  induction p as [o|o k IH|o k IH|k IH|k IH|n p IH]; intros h; cbn [hrun pbind].
  - destruct o; reflexivity.
  - destruct (step (hI h) o) as [[i y]| | |]; cbn; auto.
  - destruct (istep (hE h) o) as [[e y]| | |]; cbn; auto.
  - auto.
  - auto.
  - auto.
Qed.

Lemma wbind_ok {X Y} (p : prog A X) (f : X -> prog A Y) w w1 x r :
  wrun p w = Some (w1, x) -> wrun (f x) w1 = r -> wrun (pbind p f) w = r.
Proof. intros H1 H2. rewrite wrun_bind, H1. exact H2. Qed.

(* ---- reading and changing variables ---- *)
Lemma svar_nth {B} (s : sstate B) h l : svar s h = Some l <-> nth_error s h = Some (Some l).
Proof. unfold svar. destruct (nth_error s h) as [[x|]|]; split; intros H; inversion H; subst; auto. Qed.
Lemma svar_lt {B} (s : sstate B) h l : svar s h = Some l -> h < length s.
Proof. intros H. apply svar_nth in H. apply nth_error_lt_inv in H. exact H. Qed.
Lemma svar_app {B} (s s' : sstate B) h l : svar s h = Some l -> svar (s ++ s') h = Some l.
Proof. intros H. pose proof (svar_lt _ _ _ H). apply svar_nth in H. apply svar_nth. rewrite nth_error_app1; auto. Qed.
Lemma svar_end {B} (s : sstate B) l : svar (s ++ [Some l]) (length s) = Some l.
Proof. apply svar_nth. rewrite nth_error_app2 by lia. rewrite Nat.sub_diag. reflexivity. Qed.
Lemma svar_upd_eq {B} (s : sstate B) h o l : svar s h = Some l -> svar (upd s h o) h = o.
Proof. intros H. apply svar_lt in H. unfold svar. rewrite nth_error_upd_eq by auto. destruct o; reflexivity. Qed.
Lemma svar_upd_ne {B} (s : sstate B) h g o : g <> h -> svar (upd s h o) g = svar s g.
Proof. intros H. unfold svar. rewrite nth_error_upd_ne by auto. reflexivity. Qed.

(* ---- calls ---- *)
Ltac wdone := cbn [wrun wI wE wK].
Lemma w_makeI_copy I E K d l : svar I d = Some l -> wrun (makeI (OCopy d)) (mkW I E K) = Some (mkW (I ++ [Some l]) E K, length I).
Proof. intros H. unfold makeI. cbn. rewrite H. reflexivity. Qed.
Lemma w_makeI_new I E K l : wrun (makeI (ONew l)) (mkW I E K) = Some (mkW (I ++ [Some l]) E K, length I).
Proof. reflexivity. Qed.
Lemma w_destroyI I E K d l : svar I d = Some l -> wrun (callI (ODestroy d)) (mkW I E K) = Some (mkW (upd I d None) E K, tt).
Proof. intros H. unfold callI. cbn. rewrite H. reflexivity. Qed.
Lemma w_assignI I E K d g l m : svar I d = Some l -> svar I g = Some m -> wrun (callI (OAssign d g)) (mkW I E K) = Some (mkW (upd I d (Some m)) E K, tt).
Proof. intros H H'. unfold callI. cbn. rewrite H, H'. reflexivity. Qed.
Lemma w_writeI I E K d l i v : svar I d = Some l -> i < length l -> wrun (callI (OWrite d i v)) (mkW I E K) = Some (mkW (upd I d (Some (upd l i v))) E K, tt).
Proof. intros H H'. unfold callI. cbn -[Nat.ltb]. rewrite H. apply Nat.ltb_lt in H'. rewrite H'. reflexivity. Qed.
Lemma w_sizeI I E K d l : svar I d = Some l -> wrun (sizeI d) (mkW I E K) = Some (mkW I E K, length l).
Proof. intros H. unfold sizeI. cbn. rewrite H. reflexivity. Qed.
Lemma w_readI I E K d l i x : svar I d = Some l -> nth_error l i = Some x -> wrun (readI d i) (mkW I E K) = Some (mkW I E K, x).
Proof. intros H H'. unfold readI. cbn. rewrite H, H'. reflexivity. Qed.
Lemma forget_none (o : op A) K : (forall w h, forgets o (w, h) = false) -> forget (forgets o) K = K.
Proof. intros F. unfold forget. rewrite <- (map_id K) at 2. apply map_ext. intros [[w h]|]; [rewrite F|]; reflexivity. Qed.
Lemma w_sizeE I E K d l : svar E d = Some l -> wrun (sizeE d) (mkW I E K) = Some (mkW I E K, length l).
Proof. intros H. unfold sizeE. cbn [wrun isstep sstep wE wK]. rewrite H. rewrite forget_none by reflexivity. reflexivity. Qed.
Lemma w_readE I E K d l i x : svar E d = Some l -> nth_error l i = Some x -> wrun (readE d i) (mkW I E K) = Some (mkW I E K, x).
Proof. intros H H'. unfold readE. cbn [wrun isstep sstep wE wK]. rewrite H, H'. rewrite forget_none by reflexivity. reflexivity. Qed.
Lemma w_loadE I E K p b h l i x : nth_error K p = Some (Some (b, h)) -> svar E h = Some l -> nth_error l i = Some x -> wrun (loadE p i) (mkW I E K) = Some (mkW I E K, x).
Proof. intros H0 H H'. unfold loadE. cbn. rewrite H0, H, H'. reflexivity. Qed.
Lemma w_storeE I E K p h l i v : nth_error K p = Some (Some (true, h)) -> svar E h = Some l -> i < length l -> wrun (storeE p i v) (mkW I E K) = Some (mkW I (upd E h (Some (upd l i v))) K, tt).
Proof. intros H0 H H'. unfold storeE. cbn -[Nat.ltb]. apply Nat.ltb_lt in H'. rewrite H0, H, H'. reflexivity. Qed.
Lemma w_makeE_copy I E d l : svar E d = Some l -> wrun (makeE (OCopy d)) (mkW I E []) = Some (mkW I (E ++ [Some l]) [], length E).
Proof. intros H. unfold makeE. cbn. rewrite H. reflexivity. Qed.
Lemma w_makeE_new I E l : wrun (makeE (ONew l)) (mkW I E []) = Some (mkW I (E ++ [Some l]) [], length E).
Proof. reflexivity. Qed.
Lemma w_destroyE I E d l : svar E d = Some l -> wrun (callE (ODestroy d)) (mkW I E []) = Some (mkW I (upd E d None) [], tt).
Proof. intros H. unfold callE. cbn. rewrite H. reflexivity. Qed.
Lemma w_assignE I E d g l m : svar E d = Some l -> svar E g = Some m -> wrun (callE (OAssign d g)) (mkW I E []) = Some (mkW I (upd E d (Some m)) [], tt).
Proof. intros H H'. unfold callE. cbn. rewrite H, H'. reflexivity. Qed.
Lemma w_writeE I E d l i v : svar E d = Some l -> i < length l -> wrun (callE (OWrite d i v)) (mkW I E []) = Some (mkW I (upd E d (Some (upd l i v))) [], tt).
Proof. intros H H'. unfold callE. cbn -[Nat.ltb]. rewrite H. apply Nat.ltb_lt in H'. rewrite H'. reflexivity. Qed.
Lemma w_beginE I E K h l : svar E h = Some l -> wrun (beginE h) (mkW I E K) = Some (mkW I E (forget (fun p => negb (fst p) && (snd p =? h)) K ++ [Some (true, h)]), length K).
Proof. intros H. unfold beginE. cbn. rewrite H. reflexivity. Qed.
Lemma w_cbeginE I E K h l : svar E h = Some l -> wrun (cbeginE h) (mkW I E K) = Some (mkW I E (K ++ [Some (false, h)]), length K).
Proof. intros H. unfold cbeginE. cbn. rewrite H. reflexivity. Qed.
Lemma w_locals {X} (p : prog A X) I E I' E' K' x : wrun p (mkW I E []) = Some (mkW I' E' K', x) -> wrun (locals p) (mkW I E []) = Some (mkW I' E' [], x).
Proof. intros H. unfold locals. cbn. rewrite wrun_bind, H. cbn. reflexivity. Qed.
Lemma w_done {X} (o : outcome X) w x : o = Ok x -> wrun (Done (A := A) o) w = Some (w, x).
Proof. intros ->. reflexivity. Qed.

(* ---- loops ---- *)
Lemma w_loop {S} (inv : nat -> S -> wstate -> Prop) (body : nat -> S -> prog A S) n : forall i s w,
  inv i s w -> (forall k s w, i <= k < i + n -> inv k s w -> exists w' s', wrun (body k s) w = Some (w', s') /\ inv (Datatypes.S k) s' w') ->
  exists w' s', wrun (loop n i body s) w = Some (w', s') /\ inv (i + n) s' w'.
Proof.
  induction n as [|n IH]; intros i s w H0 H; cbn [loop].
  - exists w, s. rewrite Nat.add_0_r. split; [reflexivity|exact H0].
  - destruct (H i s w ltac:(lia) H0) as (w1 & s1 & E1 & H1). destruct (IH (Datatypes.S i) s1 w1 H1) as (w2 & s2 & E2 & H2).
    { intros k s' w' Hk. apply H. lia. }
    exists w2, s2. rewrite wrun_bind, E1. split; [exact E2|]. replace (i + Datatypes.S n) with (Datatypes.S i + n) by lia. exact H2.
Qed.
Lemma w_listI I E K d l : svar I d = Some l -> wrun (listI d) (mkW I E K) = Some (mkW I E K, l).
Proof.
  intros H. unfold listI. eapply wbind_ok; [apply w_sizeI; eauto|].
  destruct (w_loop (fun k s w => s = firstn k l /\ w = mkW I E K) (fun i l0 => pbind (readI d i) (fun x => Done (Ok (l0 ++ [x])))) (length l) 0 [] (mkW I E K)) as (w' & s' & E1 & -> & ->).
  - auto.
  - intros k s w Hk [-> ->]. destruct (nth_error_lt l k ltac:(lia)) as [x Hx]. exists (mkW I E K), (firstn (S k) l). split; [|auto].
    eapply wbind_ok; [eapply w_readI; eauto|]. cbn [wrun]. f_equal. f_equal.
    clear - Hx. revert l Hx. induction k as [|k IH]; intros [|y l] Hx; cbn in *; try discriminate; [injection Hx as ->; reflexivity|]. f_equal. apply IH. exact Hx.
  - rewrite E1. rewrite firstn_all2 by lia. reflexivity.
Qed.
(* a loop that changes one vector *)
Lemma w_store_loop (body : nat -> unit -> prog A unit) (g : nat -> list A -> outcome (list A)) I E K e n : forall i a0 an,
  for_from i n g a0 = Ok an ->
  (forall k a a', i <= k < i + n -> g k a = Ok a' -> wrun (body k tt) (mkW I (upd E e (Some a)) K) = Some (mkW I (upd E e (Some a')) K, tt)) ->
  wrun (loop n i body tt) (mkW I (upd E e (Some a0)) K) = Some (mkW I (upd E e (Some an)) K, tt).
Proof.
  induction n as [|n IH]; intros i a0 an H HB; cbn [loop for_from] in *.
  - injection H as ->. reflexivity.
  - destruct (g i a0) as [a1| | |] eqn:E1; try discriminate. cbn in H. eapply wbind_ok; [apply HB; [lia|exact E1]|]. cbn. apply IH; auto. intros k a a' Hk. apply HB. lia.
Qed.
Lemma for_put (h : nat -> outcome A) n : forall i a an j,
  for_from i n (fun i st => v <- h i ;; put v st) (a, i) = Ok (an, j) -> for_from i n (fun i a => v <- h i ;; wr a i v) a = Ok an.
Proof.
  induction n as [|n IH]; intros i a an j H; cbn [for_from] in *; [congruence|].
  destruct (h i) as [v| | |]; cbn in *; try discriminate. destruct (wr a i v) as [a1| | |]; cbn in *; try discriminate. apply IH in H. exact H.
Qed.
End W.
