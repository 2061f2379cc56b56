(* C91: sharing of memory cannot be observed through tensor operations. *)
From Verif Require Import Base Spec M_RefCount S_RefCount L_RefCount M_Iter S_Iter L_Iter M_Tensor M_Arith M_Range M_TensorHeap S_TensorHeap L_TensorHeap L_TensorHeap2 L_TensorHeap3 L_TensorHeap4 L_TensorHeap5.
Local Open Scope nat_scope.

Section P.
Context {A : Type}.

Lemma V_holds h en I E (vs : values A) t x : HRel h (mkW I E []) -> VRel en I E vs -> tval vs t = Some x -> holds h en t x.
Proof.
  intros [R1 [R2 _]] V H. destruct (V_tval _ _ _ _ _ _ V H) as (d & e & En & Hd & He). exists d, e. split; [auto|]. split; [eapply Rel_svar; eauto|]. eapply Rel_svar; eauto.
Qed.
Lemma V_holds_i h en I E (vs : values A) t l : HRel h (mkW I E []) -> VRel en I E vs -> ival vs t = Some l -> holds_indices h en t l.
Proof. intros [R1 [R2 _]] V H. destruct (V_ival _ _ _ _ _ _ V H) as (d & En & Hd). exists d. split; [auto|]. eapply Rel_svar; eauto. Qed.
Lemma V_dead en I E (vs : values A) t : VRel en I E vs -> tval vs t = None -> ~ live_tensor en t.
Proof.
  intros V H [[d e] Hh]. destruct (forall2_nth _ _ _ _ _ (v_t _ _ _ _ V) Hh) as ([x|] & Ex & R); cbn in R; [|contradiction]. unfold tval in H. rewrite Ex in H. discriminate.
Qed.
Lemma V_dead_i en I E (vs : values A) t : VRel en I E vs -> ival vs t = None -> ~ live_indices en t.
Proof.
  intros V H [d Hh]. destruct (forall2_nth _ _ _ _ _ (v_i _ _ _ _ V) Hh) as ([x|] & Ex & R); cbn in R; [|contradiction]. unfold ival in H. rewrite Ex in H. discriminate.
Qed.
Lemma Rel_none {B} (s : state B) (t : sstate B) : Rel s t -> (forall k l, svar t k <> Some l) -> Forall (fun p => p = None) (heap s).
Proof.
  intros [HI HS] HN. apply Forall_forall. intros p Hp. apply In_nth_error in Hp as [a Ha]. destruct p as [p|]; [|reflexivity]. exfalso.
  destruct (inv_cnt _ _ HI a p Ha) as [_ Hc]. unfold nrefs in Hc. assert (Hin : In (Some a) (vars s)) by (apply (count_occ_In odec); lia). apply In_nth_error in Hin as [k Hk].
  assert (Hs : nth_error (seen s) k = Some (Some (pbuf p))) by (rewrite nth_seen, Hk; cbn; rewrite Ha; reflexivity). rewrite HS, nth_error_map in Hs.
  destruct (nth_error t k) as [[l|]|] eqn:Et; cbn in Hs; try discriminate. apply (HN k l). unfold svar. rewrite Et. reflexivity.
Qed.
End P.

(* Every program on variables of types Tensor and Indices that is right when every
   variable has a value of its own runs in the shared, reference counted memory, shows
   the same elements, and leaves every variable with the same value. *)
Theorem C91_values {A : Type} (ss : list (stmt A)) vs os :
  vrun (mkV [] []) ss = Some (vs, os) ->
  exists h en, exec_all no_variables ss empty_heap = Ok (h, en, os) /\
    (forall t x, tval vs t = Some x -> holds h en t x) /\ (forall t, tval vs t = None -> ~ live_tensor en t) /\
    (forall i l, ival vs i = Some l -> holds_indices h en i l) /\ (forall i, ival vs i = None -> ~ live_indices en i).
Proof.
  intros H. destruct (@H_empty A) as [R0 V0]. destruct (H_run ss _ _ _ _ _ _ _ R0 V0 H) as (h & I & E & en & F & R & V). exists h, en. split; [exact F|].
  split; [intros; eapply V_holds; eauto|]. split; [intros; eapply V_dead; eauto|]. split; [intros; eapply V_holds_i; eauto|]. intros; eapply V_dead_i; eauto.
Qed.
Print Assumptions C91_values.

(* The next statement changes no tensor other than the one it writes: not the tensors
   that share memory with it, not the tensors it reads. *)
Theorem C91_others {A : Type} (ss : list (stmt A)) s vs os vs' o :
  vrun (mkV [] []) ss = Some (vs, os) -> vstep vs s = Some (vs', o) ->
  exists h en h' en', exec_all no_variables ss empty_heap = Ok (h, en, os) /\ hrun (exec en s) h = Ok (h', (en', o)) /\
    forall t x, written s <> Some t -> (holds h en t x <-> holds h' en' t x /\ t < length (etens en)).
Proof.
  intros H Hs. destruct (@H_empty A) as [R0 V0]. destruct (H_run ss _ _ _ _ _ _ _ R0 V0 H) as (h & I & E & en & F & R & V).
  destruct (H_step h en I E vs _ _ _ R V Hs) as (h' & I' & E' & en' & F' & R' & V'). exists h, en, h', en'. split; [exact F|]. split; [exact F'|].
  intros t x Hw. assert (Hl : length (etens en) = length (tens vs)) by (apply (F2_len _ _ _ (v_t _ _ _ _ V))).
  assert (HT : t < length (tens vs) -> tval vs' t = tval vs t).
  { intros Ht. destruct s; cbn [vstep written] in *; unfold obind, check in Hs;
      repeat match type of Hs with context [if ?b then Some tt else None] => destruct b; try discriminate | context [match ?y with _ => _ end] => destruct y; try discriminate end;
      try discriminate; injection Hs as <- <-; unfold tval; cbn [new_i new_t set_i set_t tens]; rewrite ?nth_error_app1 by auto; try reflexivity;
      rewrite nth_error_upd_ne by congruence; reflexivity. }
  assert (Hu : forall (g : hstate A) e0 J K w y z, HRel g (mkW J K []) -> VRel e0 J K w -> holds g e0 y z -> tval w y = Some z).
  { clear. intros g e0 J K w y z [[_ R1] [[_ R2] _]] V (d & e & Hn & Hd & He). destruct (forall2_nth _ _ _ _ _ (v_t _ _ _ _ V) Hn) as ([q|] & Ex & Rq); cbn in Rq; [|contradiction]. destruct Rq as [Q1 Q2].
    unfold tval. rewrite Ex. cbn [wI wE fst] in *. rewrite R1, nth_error_map in Hd. rewrite R2, nth_error_map in He. apply svar_nth in Q1. apply svar_nth in Q2. rewrite Q1 in Hd. rewrite Q2 in He. cbn in *.
    injection Hd as Hd. injection He as He. destruct q, z; cbn in *. congruence. }
  split.
  - intros Hh. assert (Ht : t < length (etens en)). { destruct Hh as (d & e & Hn & _). eapply nth_error_lt_inv; eauto. } split; [|exact Ht].
    pose proof (Hu _ _ _ _ _ _ _ R V Hh) as T. eapply V_holds; eauto. rewrite HT; [exact T|lia].
  - intros [Hh Ht]. pose proof (Hu _ _ _ _ _ _ _ R' V' Hh) as T. eapply V_holds; eauto. rewrite <- HT; [exact T|lia].
Qed.
Print Assumptions C91_others.

(* Once all variables are destroyed no block of memory is left, in any order of
   destruction and whatever was shared. *)
Theorem C91_no_leak {A : Type} (ss : list (stmt A)) vs os :
  vrun (mkV [] []) ss = Some (vs, os) -> (forall t, tval vs t = None) -> (forall i, ival vs i = None) ->
  exists h en, exec_all no_variables ss empty_heap = Ok (h, en, os) /\
    Forall (fun p => p = None) (heap (hI h)) /\ Forall (fun p => p = None) (heap (ist (hE h))).
Proof.
  intros H HT HI. destruct (@H_empty A) as [R0 V0]. destruct (H_run ss _ _ _ _ _ _ _ R0 V0 H) as (h & I & E & en & F & [R1 [R2 _]] & V). exists h, en. split; [exact F|]. split.
  - eapply Rel_none; [exact R1|]. intros k l Hk. destruct (v_li _ _ _ _ V _ _ Hk) as [(t & e & Ht)|(u & Hu)].
    + apply (V_dead _ _ _ _ t V (HT t)). eexists; eauto.
    + apply (V_dead_i _ _ _ _ u V (HI u)). eexists; eauto.
  - eapply Rel_none; [exact R2|]. intros k l Hk. destruct (v_le _ _ _ _ V _ _ Hk) as (t & d & Ht). apply (V_dead _ _ _ _ t V (HT t)). eexists; eauto.
Qed.
Print Assumptions C91_no_leak.

(* A copy of t that nobody looks at changes the result of t += t[0]: with t = (2, 4)
   the second element becomes 4 + 4, with a copy 4 + 2.  The number is a reference into
   the block that t had before begin() gave it one of its own. *)
Definition two_four : list (stmt nat) := [TIndices [2]; TNew (fun i => 2 + 2 * i) 0].
Theorem C91_element_refuted :
  exists (ss : list (stmt nat)) (t : nat) (vs vs' : values nat) (os os' : list (option nat)),
    vrun (mkV [] []) ss = Some (vs, os) /\ vrun (mkV [] []) (ss ++ [TCopy t]) = Some (vs', os') /\ tval vs t = tval vs' t /\
    (exists h en o, exec_all no_variables (ss ++ [TOpElem Nat.add t 0; TGet t 1]) empty_heap = Ok (h, en, o) /\ last o None = Some 8) /\
    (exists h en o, exec_all no_variables (ss ++ [TCopy t; TOpElem Nat.add t 0; TGet t 1]) empty_heap = Ok (h, en, o) /\ last o None = Some 6).
Proof.
  assert (S1 : forall ss (n : nat), match exec_all no_variables ss empty_heap with Ok (_, _, o) => last o None | _ => None end = Some n ->
    exists h en o, exec_all no_variables ss empty_heap = Ok (h, en, o) /\ last o None = Some n).
  { intros ss n H. destruct (exec_all no_variables ss empty_heap) as [[[h en] o]| | |]; try discriminate. exists h, en, o. auto. }
  exists two_four, 0, (mkV [Some (mkT [2] [2; 4])] [Some [2]]), (mkV [Some (mkT [2] [2; 4]); Some (mkT [2] [2; 4])] [Some [2]]), [None; None], [None; None; None].
  split; [vm_compute; reflexivity|]. split; [vm_compute; reflexivity|]. split; [reflexivity|]. split; apply S1; vm_compute; reflexivity.
Qed.
Print Assumptions C91_element_refuted.

(* non-vacuity: copies, a reshape that shares, writes, t *= t in three orders, slices *)
Definition busy (b : nat) (o : bool) : list (stmt nat) :=
  [TIndices [2; 2]; TNew (fun i => S i) 0; TCopy 0; TIndices [4]; TShare 1 0; TSet 0 3 9; TGet 1 3; TGet 2 3; TOpTransform Nat.mul b 1 1; TGet 1 3; TGet 2 3;
   TSlice 9 (fun _ => 7) 0 [SFull; SStep 0 1 1]; TSetView 9 o 0 [SFull; SStep 0 0 1] 0 [SFull; SStep 1 1 1]; TGet 0 0; TGet 0 1; TGet 3 0;
   TBin Nat.add (fun _ => 0) 0 1; TGet 4 3; TDrop 0; TDrop 1; TDrop 2; TDrop 3; TDrop 4; TIndexDrop 0; TIndexDrop 1].
Example C91_meets : forall b o, In b [0; 1; 2; 3] -> vrun (mkV [] []) (busy b o) =
  Some (mkV [None; None; None; None; None] [None; None],
    [None; None; None; None; None; None; Some 4; Some 4; None; Some 16; Some 4; None; None; Some 3; Some 9; Some 1; None; Some 25; None; None; None; None; None; None; None]).
Proof. intros b o Hb. cbn in Hb. destruct o; decompose [or] Hb; subst; try contradiction; vm_compute; reflexivity. Qed.
